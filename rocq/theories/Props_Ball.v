(** * Props_Ball: balls of glass *)
From Coq Require Import Reals List ZArith Lra.
Import ListNotations.
From Verif Require Import XR Lin LinFacts Csg CsgProps Prim PrimFacts SpecMotion Surf World Tracer SpecTrace TraceExamples TraceProps TraceFacts3 SpecComponents SpecBall BallProps BallExamples.
Open Scope R_scope.

(** C126.  A ray in air enters a ball of glass (its direction has a negative component along the outward normal) and its
    next row ends on the ball again.  Then it leaves at once, never totally reflected: the direction outside is the
    direction before, turned over the direction inside; it makes the same angle with the normal as when it came; and the
    cosine of the angle it turns through, on either side, is the sum of products of cosines and sines of the two angles of
    Snell's law. *)
Theorem C126_a_ball_turns_rays_twice : forall asort, argsort_ok asort -> forall gen h t comps fuel t', proper gen h t comps -> trace asort h gen fuel t = TOk t' ->
  forall f c r idx n i before w0 w1 w2 after, rows_with_id i (f_rows (get_results t')) = before ++ w0 :: w1 :: w2 :: after ->
  In f (flat_map surface_ids comps) -> ball f c r -> s_mat f = Refractor idx -> row_surf w0 = s_id f -> row_surf w1 = s_id f ->
  idx (row_wl w0) = Fin n -> 1 <= n -> row_idx w0 = 1 -> vdot (row_tilt w0) (vsub (here (row_end w0)) c) < 0 ->
  let p := - vdot (row_tilt w0) (vsub (here (row_end w0)) c) / r in
  row_idx w1 = n /\ row_idx w2 = 1 /\ row_tilt w2 = turned_over (row_tilt w1) (row_tilt w0) /\
  vdot (row_tilt w2) (vsub (here (row_end w1)) c) = - vdot (row_tilt w0) (vsub (here (row_end w0)) c) /\
  vdot (row_tilt w0) (row_tilt w1) = (1 - p * p) / n + p * sqrt (1 - (1 - p * p) / (n * n)).
Proof. exact ball_turns_twice. Qed.
Print Assumptions C126_a_ball_turns_rays_twice.

Example C126_crossing : forall asort, argsort_ok asort -> exists h t comps t' f w0 w1 w2 after,
  proper (fun _ _ => outer_lamp) h t comps /\ trace asort h (fun _ _ => outer_lamp) 22 t = TOk t' /\
  rows_with_id 0 (f_rows (get_results t')) = [] ++ w0 :: w1 :: w2 :: after /\ In f (flat_map surface_ids comps) /\ ball f (pt 0 0 0) 5 /\
  s_mat f = Refractor (fun _ => Fin (39 / 25)) /\ row_surf w0 = s_id f /\ row_surf w1 = s_id f /\ row_idx w0 = 1 /\
  row_tilt w0 = V4 1 0 0 0 /\ here (row_end w0) = V4 (-4) 3 0 1.
Proof. exact crossing_case. Qed.

(** C126.  Inside a ball of glass of index [n] lies, at distance [r / n] from the centre, the point [c + p].  Every ray from
    this point that starts on the side of the centre leaves the ball as if it came from the point [c + n * n * p]: a ball
    of glass forms a perfect (virtual) image of this point, for every angle. *)
Theorem C126_aplanatic_points : forall asort, argsort_ok asort -> forall gen h t comps fuel t', proper gen h t comps -> trace asort h gen fuel t = TOk t' ->
  forall f c r idx n i before w1 w2 after p k, rows_with_id i (f_rows (get_results t')) = before ++ w1 :: w2 :: after ->
  In f (flat_map surface_ids comps) -> ball f c r -> s_mat f = Refractor idx -> row_surf w1 = s_id f ->
  row_idx w1 = n -> 1 < n -> vw p = 0 -> n * n * vdot p p = r * r -> 0 < k ->
  here (row_end w1) = vadd (vadd c p) (vscale k (row_tilt w1)) -> vdot (row_tilt w1) p < 0 ->
  row_idx w2 = 1 /\ here (row_end w1) = vadd (vadd c (vscale (n * n) p)) (vscale (n * k) (row_tilt w2)).
Proof.
  intros asort AS gen h t comps fuel t' PR TR f c r idx n i before w1 w2 after p k R IN BL MA SU IX N1 WP PP KP EP SIDE.
  apply (ball_aplanatic asort AS gen h t comps fuel t' PR TR f c r idx n i before w1 w2 after p k R); auto.
  rewrite EP. replace (vdot (vsub (vadd (vadd c p) (vscale k (row_tilt w1))) c) p) with (vdot p p + k * vdot (row_tilt w1) p).
  - assert (0 < n * n) by nra. assert (k * vdot (row_tilt w1) p < 0) by nra. nra.
  - destruct c, p, (row_tilt w1). unfold vdot, vsub, vadd, vscale; cbn. ring.
Qed.
Print Assumptions C126_aplanatic_points.

Example C126_aplanatic : forall asort, argsort_ok asort -> exists h t comps t' f w1 w2 after,
  proper (fun _ _ => inner_lamp) h t comps /\ trace asort h (fun _ _ => inner_lamp) 22 t = TOk t' /\
  rows_with_id 0 (f_rows (get_results t')) = [] ++ w1 :: w2 :: after /\ In f (flat_map surface_ids comps) /\ ball f (pt 0 0 0) 3 /\
  s_mat f = Refractor (fun _ => Fin (3 / 2)) /\ row_surf w1 = s_id f /\ row_idx w1 = 3 / 2 /\ 3 / 2 * (3 / 2) * vdot (V4 2 0 0 0) (V4 2 0 0 0) = 3 * 3 /\
  here (row_end w1) = vadd (vadd (pt 0 0 0) (V4 2 0 0 0)) (vscale 3 (row_tilt w1)) /\ vdot (row_tilt w1) (V4 2 0 0 0) < 0.
Proof.
  intros asort AS. destruct (aplanatic_case asort AS) as (h & t & comps & t' & f & w1 & w2 & after & H1 & H2 & H3 & H4 & H5 & H6 & H7 & H8 & H9 & H10 & _ & H12).
  exists h, t, comps, t', f, w1, w2, after. repeat (split; [assumption|]). rewrite H12. unfold vdot; cbn. lra.
Qed.
