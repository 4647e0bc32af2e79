(** * Props_Block: blocks of glass *)
From Coq Require Import Reals List ZArith Lra Lia.
Import ListNotations.
From Verif Require Import XR Lin Csg CsgProps Prim Surf World Tracer SpecTrace TraceProps SpecComponents SpecEdges SpecBlock BlockProps RodExamples BlockExamples PlateProps PlateExamples.
Open Scope R_scope.

(** C128.  A ray in air enters a block of glass, of index at least the square root of two, through a face across the axis [a].
    Then come any number of legs [ws] in the glass, all of which end on faces of the block, and then the leg [u].  Either
    [u] runs in the glass too; what it has along the other two axes is, up to sign, what it had outside divided by the
    index; and the leg before did not end on a face across [a] from inside.  Or the leg before did, and only then has the
    ray left: [u] runs in air, and along every axis of the block it has, up to sign, what it had before it entered.
    So the ray never leaves through the other four faces, and is never kept by the two across [a]. *)
Theorem C128_rays_leave_a_block_as_they_entered_it : forall asort, argsort_ok asort -> forall gen h t comps fuel t', proper gen h t comps -> trace asort h gen fuel t = TOk t' ->
  forall f low high idx n a i before w0 ws u after, rows_with_id i (f_rows (get_results t')) = before ++ (w0 :: ws ++ [u]) ++ after ->
  In f (flat_map surface_ids comps) -> block f low high -> s_mat f = Refractor idx -> idx (row_wl w0) = Fin n -> 0 < n -> 2 <= n * n ->
  enters f low high a w0 -> row_idx w0 = 1 -> Forall (fun w => row_idx w = n /\ exists b, ends_on_pair f low high b w) ws ->
  (row_idx u = n /\ (forall b, b <> a -> n * n * (part f b u * part f b u) = part f b w0 * part f b w0) /\ (forall ws' v, ws = ws' ++ [v] -> ~ leaves f low high a v) \/
   row_idx u = 1 /\ (forall b, part f b u * part f b u = part f b w0 * part f b w0) /\ exists ws' v, ws = ws' ++ [v] /\ leaves f low high a v).
Proof. exact blocks_pass. Qed.
Print Assumptions C128_rays_leave_a_block_as_they_entered_it.

(** A ray that enters a bar of index 8/5 almost along its end, meets two of its sides and leaves at the other end *)
Example C128_hypotheses : forall asort, argsort_ok asort -> exists h t comps t' f w0 w1 w2 v u after,
  proper (fun _ _ => rod_lamp) h t comps /\ trace asort h (fun _ _ => rod_lamp) 22 t = TOk t' /\
  rows_with_id 0 (f_rows (get_results t')) = [] ++ (w0 :: [w1; w2; v] ++ [u]) ++ after /\ In f (flat_map surface_ids comps) /\ block f lows highs /\
  s_mat f = Refractor (fun _ => Fin (8 / 5)) /\ enters f lows highs AlongZ w0 /\ row_idx w0 = 1 /\ part f AlongY w0 = 24 / 25 /\
  Forall (fun w => row_idx w = 8 / 5 /\ exists b, ends_on_pair f lows highs b w) [w1; w2; v].
Proof. exact block_case. Qed.

(** Straight through: a ray in air enters a block of glass, of index at least one, through a face across the axis [a], and its
    next leg leaves through a face across [a].  Then it goes on in the very direction it came, and between the two faces it was
    carried along each other axis by the thickness times what it has along that axis over sqrt (n^2 - 1 + c^2), where [c] is
    what it has along [a]; without the glass (n = 1) that is the thickness times what it has over [c]. *)
Theorem C128_plates_shift_rays : forall asort, argsort_ok asort -> forall gen h t comps fuel t', proper gen h t comps -> trace asort h gen fuel t = TOk t' ->
  forall f low high idx n a i before w0 v u after, rows_with_id i (f_rows (get_results t')) = before ++ [w0; v; u] ++ after ->
  In f (flat_map surface_ids comps) -> block f low high -> s_mat f = Refractor idx -> idx (row_wl w0) = Fin n -> 1 <= n ->
  enters f low high a w0 -> row_idx w0 = 1 -> leaves f low high a v ->
  row_idx v = n /\ row_idx u = 1 /\ row_tilt u = row_tilt w0 /\
  forall b, b <> a -> place f b v - place f b w0 = (high a - low a) * part f b w0 / sqrt (n * n - 1 + part f a w0 * part f a w0).
Proof. exact plates_pass. Qed.
Print Assumptions C128_plates_shift_rays.

(** A ray that enters the side of the bar almost along it, and leaves through the opposite side 9/2 further on *)
Example C128_plate_hypotheses : forall asort, argsort_ok asort -> exists h t comps t' f w0 v u after,
  proper (fun _ _ => plate_lamp) h t comps /\ trace asort h (fun _ _ => plate_lamp) 22 t = TOk t' /\
  rows_with_id 0 (f_rows (get_results t')) = [] ++ [w0; v; u] ++ after /\ In f (flat_map surface_ids comps) /\ block f lows highs /\
  s_mat f = Refractor (fun _ => Fin (8 / 5)) /\ enters f lows highs AlongY w0 /\ row_idx w0 = 1 /\ leaves f lows highs AlongY v /\ part f AlongZ w0 = 24 / 25 /\ place f AlongZ v = 9 / 2.
Proof. exact plate_case. Qed.
