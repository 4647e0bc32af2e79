(** * Property C120: any number of flat mirrors *)
From Coq Require Import Reals List Bool ZArith Lra.
Import ListNotations.
From Verif Require Import XR XRFacts Arr Lin LinFacts Ops SpecOptics Prim Csg Surf SpecGeom SpecTree CsgProps World SpecWorld Tracer SpecTrace TraceFacts5 TraceFacts7 TraceExamples TraceProps
  SpecImages ImageFacts ImageFacts2 ImageFacts3 ImageExamples.
Open Scope R_scope.

(** In any trace of any scene, however many flat mirrors a ray meets one after the other: it goes on as if it came, along
    one straight line, from the image of its starting point in the mirrors, in their order, over the length of the way
    it went; its direction is the image of its first direction, and its index stays *)
Theorem C120_images_in_flat_mirrors : forall asort, argsort_ok asort -> forall gen h t comps fuel t', proper gen h t comps -> trace asort h gen fuel t = TOk t' ->
  forall i ps before ws w after, rows_with_id i (f_rows (get_results t')) = before ++ ws ++ w :: after ->
  Forall facet_ok ps -> Forall2 (off_mirror (flat_map surface_ids comps)) ps ws ->
  let first := hd w ws in
  row_idx w = row_idx first /\ row_tilt w = fold_left turned_by ps (row_tilt first) /\
  here (row_end w) = vadd (fold_left image_of ps (here (row_start first)))
    (vscale (walk (here (row_start first)) (map (fun u => here (row_end u)) (ws ++ [w]))) (row_tilt w)).
Proof. exact images_traced. Qed.
Print Assumptions C120_images_in_flat_mirrors.

(** Two mirrors: what runs along their common edge stays, and what runs across the edge is turned by twice the angle
    between them, however the ray falls in *)
Theorem C120_two_mirrors : forall asort, argsort_ok asort -> forall gen h t comps fuel t', proper gen h t comps -> trace asort h gen fuel t = TOk t' ->
  forall i before w0 w1 w2 after n1 k1 n2 k2, rows_with_id i (f_rows (get_results t')) = before ++ [w0; w1] ++ w2 :: after ->
  Forall facet_ok [(n1, k1); (n2, k2)] -> Forall2 (off_mirror (flat_map surface_ids comps)) [(n1, k1); (n2, k2)] [w0; w1] ->
  (forall e, vdot e n1 = 0 -> vdot e n2 = 0 -> vdot e (row_tilt w2) = vdot e (row_tilt w0)) /\
  (forall a b e, vdot e n1 = 0 -> vdot e n2 = 0 -> row_tilt w0 = vadd (vadd (vscale a n1) (vscale b n2)) e ->
     vdot (vsub (row_tilt w0) e) (vsub (row_tilt w2) e) = (2 * (vdot n1 n2 * vdot n1 n2) - 1) * vdot (vsub (row_tilt w0) e) (vsub (row_tilt w0) e)).
Proof.
  intros asort AS gen h t comps fuel t' PR TR i before w0 w1 w2 after n1 k1 n2 k2 R F OM.
  destruct (images_traced asort AS gen h t comps fuel t' PR TR i _ before _ w2 after R F OM) as (_ & TI & _). cbn [hd] in TI.
  inversion F as [|? ? F1 F']; subst. inversion F' as [|? ? F2 _]; subst. rewrite TI. split; [apply two_turns; auto|].
  intros a b e E1 E2 E. rewrite (two_turns_split n1 k1 n2 k2 (row_tilt w0) e E1 E2).
  apply (two_turns n1 k1 n2 k2 (vsub (row_tilt w0) e) F1 F2) with (a := a) (b := b).
  rewrite E. destruct (vadd (vscale a n1) (vscale b n2)) as [x1 x2 x3 x4], e as [e1 e2 e3 e4]. vec. f_equal; ring.
Qed.
Print Assumptions C120_two_mirrors.

(** Three mirrors at right angles send every ray back along its direction, as from its starting point's image in the
    corner *)
Theorem C120_corner_reflector : forall asort, argsort_ok asort -> forall gen h t comps fuel t', proper gen h t comps -> trace asort h gen fuel t = TOk t' ->
  forall i before w0 w1 w2 w3 after n1 k1 n2 k2 n3 k3, rows_with_id i (f_rows (get_results t')) = before ++ [w0; w1; w2] ++ w3 :: after ->
  Forall facet_ok [(n1, k1); (n2, k2); (n3, k3)] -> Forall2 (off_mirror (flat_map surface_ids comps)) [(n1, k1); (n2, k2); (n3, k3)] [w0; w1; w2] ->
  vdot n1 n2 = 0 -> vdot n1 n3 = 0 -> vdot n2 n3 = 0 ->
  row_tilt w3 = vopp (row_tilt w0) /\
  forall corner, vw corner = 1 -> vdot n1 corner = k1 -> vdot n2 corner = k2 -> vdot n3 corner = k3 ->
    here (row_end w3) = vadd (vsub (vscale 2 corner) (here (row_start w0)))
      (vscale (walk (here (row_start w0)) [here (row_end w0); here (row_end w1); here (row_end w2); here (row_end w3)]) (vopp (row_tilt w0))).
Proof.
  intros asort AS gen h t comps fuel t' PR TR i before w0 w1 w2 w3 after n1 k1 n2 k2 n3 k3 R F OM O12 O13 O23.
  destruct (images_traced asort AS gen h t comps fuel t' PR TR i _ before _ w3 after R F OM) as (_ & TI & EN). cbn [hd app map] in TI, EN.
  inversion F as [|? ? F1 F']; subst. inversion F' as [|? ? F2 F'']; subst. inversion F'' as [|? ? F3 _]; subst.
  destruct (three_turns n1 k1 n2 k2 n3 k3 F1 F2 F3 O12 O13 O23) as (A & B).
  assert (V : row_tilt w3 = vopp (row_tilt w0)).
  { rewrite TI. apply A. destruct (proper_legs asort AS gen h t comps fuel t' PR TR) as (LG & _). apply LG. apply (in_rows_with_id i). rewrite R. apply in_app_iff. right. left. reflexivity. }
  split; [exact V|]. intros corner WC K1 K2 K3. rewrite EN at 1. rewrite (B corner) by auto. rewrite V. reflexivity.
Qed.
Print Assumptions C120_corner_reflector.

(** A mirror that is a plane is flat wherever it stands, however it was moved, turned, scaled or inverted: one plane
    carries all of it, and every row that ends on it *)
Theorem C120_planes_are_flat : forall asort, argsort_ok asort -> forall gen h t comps fuel t', proper gen h t comps -> trace asort h gen fuel t = TOk t' ->
  forall s a b, In s (flat_map surface_ids comps) -> s_prim s = PPlane a b -> s_mat s = Mirror ->
  exists p, facet_ok p /\ (forall x y, vdot (fst p) (mapply (s_world s) (V4 x y 0 1)) = snd p) /\
    forall w, In w (f_rows (get_results t')) -> row_surf w = s_id s -> off_mirror (flat_map surface_ids comps) p w.
Proof. exact plane_mirror_facet. Qed.
Print Assumptions C120_planes_are_flat.

(** A ray inside a mirrored box, 12 across, meets three of its sides, at right angles to each other, and goes back: the
    corner (6, 6, 6) takes its start (5, 0, -3) to (7, 12, 15) *)
Example C120_box_case : forall asort, argsort_ok asort -> exists h t comps t' w0 w1 w2 w3 after,
  proper (fun _ _ => inner_ray) h t comps /\ trace asort h (fun _ _ => inner_ray) 22 t = TOk t' /\
  rows_with_id 0 (f_rows (get_results t')) = [] ++ [w0; w1; w2] ++ w3 :: after /\
  Forall facet_ok [side_x; side_y; side_z] /\ Forall2 (off_mirror (flat_map surface_ids comps)) [side_x; side_y; side_z] [w0; w1; w2] /\
  vdot (fst side_x) (fst side_y) = 0 /\ vdot (fst side_x) (fst side_z) = 0 /\ vdot (fst side_y) (fst side_z) = 0 /\
  (vdot (fst side_x) (V4 6 6 6 1) = snd side_x /\ vdot (fst side_y) (V4 6 6 6 1) = snd side_y /\ vdot (fst side_z) (V4 6 6 6 1) = snd side_z) /\
  row_tilt w3 = V4 (- (1 / 3)) (- (2 / 3)) (- (2 / 3)) 0 /\ fold_left image_of [side_x; side_y; side_z] (here (row_start w0)) = V4 7 12 15 1.
Proof.
  intros asort AS. destruct (box_case asort AS) as (h & t & comps & t' & w0 & w1 & w2 & w3 & after & PR & TR & R & OM & S0 & D0).
  exists h, t, comps, t', w0, w1, w2, w3, after. destruct sides_ok as (FX & FY & FZ).
  assert (F : Forall facet_ok [side_x; side_y; side_z]) by (repeat constructor; auto; try apply FX; try apply FY; try apply FZ).
  split; [auto|]. split; [auto|]. split; [exact R|]. split; [auto|]. split; [auto|].
  split; [unfold vdot; cbn; ring|]. split; [unfold vdot; cbn; ring|]. split; [unfold vdot; cbn; ring|].
  split; [repeat split; unfold vdot; cbn; ring|]. split.
  - destruct (images_traced asort AS _ h t comps 22 t' PR TR 0%nat _ [] _ w3 after R F OM) as (_ & TI & _). rewrite TI. cbn [hd fold_left]. rewrite D0.
    replace (turned_by (V4 (1 / 3) (2 / 3) (2 / 3) 0) side_x) with (V4 (- (1 / 3)) (2 / 3) (2 / 3) 0) by (unfold side_x; vec; f_equal; field).
    replace (turned_by (V4 (- (1 / 3)) (2 / 3) (2 / 3) 0) side_y) with (V4 (- (1 / 3)) (- (2 / 3)) (2 / 3) 0) by (unfold side_y; vec; f_equal; field).
    unfold side_z; vec; f_equal; field.
  - rewrite S0. cbn [fold_left].
    replace (image_of (V4 5 0 (-3) 1) side_x) with (V4 7 0 (-3) 1) by (unfold side_x; vec; f_equal; ring).
    replace (image_of (V4 7 0 (-3) 1) side_y) with (V4 7 12 (-3) 1) by (unfold side_y; vec; f_equal; ring).
    unfold side_z; vec; f_equal; ring.
Qed.
(** and across the edge of the first two *)
Example C120_two_case : forall asort, argsort_ok asort -> exists h t comps t' w0 w1 w2 after,
  proper (fun _ _ => inner_ray) h t comps /\ trace asort h (fun _ _ => inner_ray) 22 t = TOk t' /\
  rows_with_id 0 (f_rows (get_results t')) = [] ++ [w0; w1] ++ w2 :: after /\
  Forall facet_ok [side_x; side_y] /\ Forall2 (off_mirror (flat_map surface_ids comps)) [side_x; side_y] [w0; w1] /\
  vdot (V4 0 0 (2 / 3) 0) (V4 1 0 0 0) = 0 /\ vdot (V4 0 0 (2 / 3) 0) (V4 0 1 0 0) = 0 /\ row_tilt w0 = vadd (vadd (vscale (1 / 3) (V4 1 0 0 0)) (vscale (2 / 3) (V4 0 1 0 0))) (V4 0 0 (2 / 3) 0) /\
  vdot (V4 0 0 1 0) (row_tilt w2) = 2 / 3.
Proof.
  intros asort AS. destruct (box_case asort AS) as (h & t & comps & t' & w0 & w1 & w2 & w3 & after & PR & TR & R & OM & S0 & D0).
  exists h, t, comps, t', w0, w1, w2, (w3 :: after). destruct sides_ok as (FX & FY & FZ).
  assert (F : Forall facet_ok [side_x; side_y]) by (repeat constructor; auto; try apply FX; try apply FY).
  assert (OM' : Forall2 (off_mirror (flat_map surface_ids comps)) [side_x; side_y] [w0; w1]).
  { inversion OM as [|? ? ? ? X1 OM1]; subst. inversion OM1 as [|? ? ? ? X2 OM2]; subst. repeat constructor; auto. }
  split; [auto|]. split; [auto|]. split; [exact R|]. split; [auto|]. split; [auto|].
  split; [unfold vdot; cbn; ring|]. split; [unfold vdot; cbn; ring|]. split; [rewrite D0; vec; f_equal; ring|].
  destruct (C120_two_mirrors asort AS _ h t comps 22%nat t' PR TR 0%nat [] w0 w1 w2 (w3 :: after) (V4 1 0 0 0) 6 (V4 0 1 0 0) 6 R F OM') as (A & _).
  rewrite A, D0 by (unfold vdot; cbn; ring). unfold vdot; cbn. ring.
Qed.
(** A plane mirror of the bench, with the row that ends on it *)
Example C120_plane_case : forall asort, exists h t comps t' s a b, proper (emit 1 1) h t comps /\ trace asort h (emit 1 1) 9 t = TOk t' /\
  In s (flat_map surface_ids comps) /\ s_prim s = PPlane a b /\ s_mat s = Mirror /\ exists w, In w (f_rows (get_results t')) /\ row_surf w = s_id s.
Proof.
  intro asort. destruct (mirror_case asort) as (h & t & t' & _ & PR & TR & F).
  exists h, t, (map bench_shape [0; 2]%nat), t'. do 3 eexists. split; [exact PR|]. split; [exact TR|].
  split; [left; reflexivity|]. split; [reflexivity|]. split; [reflexivity|]. exists (out_row 1). split; [rewrite F; left; reflexivity|reflexivity].
Qed.
