(** * Props_Rod: rods and tubes guide light *)
From Coq Require Import Reals List ZArith Lra Lia.
Import ListNotations.
From Verif Require Import XR Lin Csg CsgProps Prim Surf World Tracer SpecTrace TraceProps SpecComponents SpecEdges SpecRod RodProps RodExamples.
Open Scope R_scope.

(** C127.  A ray that meets the side of a rod which holds it (a reflecting side, or glass met from inside beyond the critical
    angle), and then the side again and again, any number of times, is held every time.  On all these legs, and the one
    that follows the last, it keeps its index and its part along the axis; on all that end on the side its angle with the
    side is the same, and it goes up the axis by the same amount from one meeting to the next. *)
Theorem C127_held_once_is_held_for_ever : forall asort, argsort_ok asort -> forall gen h t comps fuel t', proper gen h t comps -> trace asort h gen fuel t = TOk t' ->
  forall f c e r lo hi i before w0 ws after, rows_with_id i (f_rows (get_results t')) = before ++ (w0 :: ws) ++ after ->
  In f (flat_map surface_ids comps) -> rod f c e r lo hi -> Forall (ends_on_side f c e r lo hi) (w0 :: ws) -> held f c e r w0 ->
  (forall k w, nth_error ((w0 :: ws) ++ after) k = Some w -> (k <= S (length ws))%nat -> row_idx w = row_idx w0 /\ axial e w = axial e w0) /\
  (forall k w, nth_error (w0 :: ws) k = Some w -> radial c e w = radial c e w0 /\
     (1 - axial e w0 * axial e w0) * (height c e (here (row_end w)) - height c e (here (row_end w0))) = INR k * (2 * axial e w0 * radial c e w0)).
Proof. exact rods_guide. Qed.
Print Assumptions C127_held_once_is_held_for_ever.

(** C127.  A rod of glass whose index is at least the square root of two holds every ray that enters it from air at its
    lower end, however steep: the legs that end on its side, any number of them, all run in the glass; when the ray comes
    to the other end it leaves, in air, with the same angle to the axis as it came. *)
Theorem C127_rods_deliver_what_enters_at_an_end : forall asort, argsort_ok asort -> forall gen h t comps fuel t', proper gen h t comps -> trace asort h gen fuel t = TOk t' ->
  forall f c e r lo hi idx n i before w0 ws v u after, rows_with_id i (f_rows (get_results t')) = before ++ (w0 :: ws ++ [v; u]) ++ after ->
  In f (flat_map surface_ids comps) -> rod f c e r lo hi -> ~ near lo hi -> s_mat f = Refractor idx -> idx (row_wl w0) = Fin n -> 0 < n -> 2 <= n * n ->
  ends_on_base f c e r lo w0 -> row_idx w0 = 1 -> 0 < axial e w0 -> Forall (ends_on_side f c e r lo hi) ws -> ends_on_top f c e hi v ->
  Forall (fun w => row_idx w = n) (ws ++ [v]) /\ row_idx u = 1 /\ axial e u = axial e w0.
Proof. exact rods_deliver. Qed.
Print Assumptions C127_rods_deliver_what_enters_at_an_end.

(** A ray that enters a rod of index 8/5 almost along its end, meets its side twice and leaves at the other end.  Its first
    row is that of the second theorem, its second one that of the first. *)
Example C127_hypotheses : forall asort, argsort_ok asort -> exists h t comps t' f w0 w1 w2 v u after,
  proper (fun _ _ => rod_lamp) h t comps /\ trace asort h (fun _ _ => rod_lamp) 22 t = TOk t' /\
  rows_with_id 0 (f_rows (get_results t')) = [] ++ (w0 :: [w1; w2] ++ [v; u]) ++ after /\ In f (flat_map surface_ids comps) /\ rod f (pt 0 0 0) (V4 0 0 1 0) 3 (-8) 8 /\ ~ near (-8) 8 /\
  s_mat f = Refractor (fun _ => Fin (8 / 5)) /\ ends_on_base f (pt 0 0 0) (V4 0 0 1 0) 3 (-8) w0 /\ row_idx w0 = 1 /\ axial (V4 0 0 1 0) w0 = 7 / 25 /\
  Forall (ends_on_side f (pt 0 0 0) (V4 0 0 1 0) 3 (-8) 8) [w1; w2] /\ ends_on_top f (pt 0 0 0) (V4 0 0 1 0) 8 v /\ held f (pt 0 0 0) (V4 0 0 1 0) 3 w1.
Proof. exact rod_case. Qed.
