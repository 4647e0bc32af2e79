(** * Property C101: what mirrors do to the rows of a trace *)
From Coq Require Import Reals List Bool ZArith Lra.
Import ListNotations.
From Verif Require Import XR XRFacts Arr Lin Ops SpecOptics Prim Csg Surf SpecGeom SpecTree CsgProps World SpecWorld Tracer SpecTrace Components SpecComponents SpecMotion MotionFacts ComponentFacts3
  SpecPrism SpecMirrors MirrorTrace PrismExamples2 MirrorExamples.
Open Scope R_scope.

(** In any trace of any scene, wherever the mirror stands and however it is turned: rays along the axis of a parabolic
    mirror pass its focus, at the distance 2f plus their depth; rays from the focus leave along the axis *)
Theorem C101_parabolic_mirror : forall asort f t ap off, argsort_ok asort -> ap_ok ap -> 0 <= t -> 0 < f -> 1 / 10000000 <= reach ap * reach ap / (4 * f) ->
  built asort (parabolic_mirror f t ap off Mirror) (fun s0 => forall m w w', isometry m -> reflected asort s0 m (on_paraboloid f ap off) w w' ->
    row_idx w' = row_idx w /\
    (row_tilt w = mapply m (V4 (-1) 0 0 0) -> 0 < 2 * f + depth_of m w /\ beyond w w' (2 * f + depth_of m w) = mapply m (pt 0 0 0)) /\
    (forall c, 0 < c -> here (row_end w) = vadd (mapply m (pt 0 0 0)) (vscale c (row_tilt w)) ->
       c = 2 * f + depth_of m w /\ row_tilt w' = mapply m (V4 1 0 0 0))).
Proof. exact para_traced. Qed.
Print Assumptions C101_parabolic_mirror.

(** Two parabolic mirrors that share their focus turn a parallel beam into a parallel beam, and a plane wave into a
    plane wave: the way between them is the two depths and a constant *)
Theorem C101_confocal_mirrors : forall asort f1 t1 ap1 off1 f2 t2 ap2 off2, argsort_ok asort -> ap_ok ap1 -> 0 <= t1 -> 0 < f1 -> 1 / 10000000 <= reach ap1 * reach ap1 / (4 * f1) ->
  ap_ok ap2 -> 0 <= t2 -> 0 < f2 -> 1 / 10000000 <= reach ap2 * reach ap2 / (4 * f2) ->
  built asort (parabolic_mirror f1 t1 ap1 off1 Mirror) (fun s1 => built asort (parabolic_mirror f2 t2 ap2 off2 Mirror) (fun s2 =>
    forall m1 m2 w1 w2 w3, isometry m1 -> isometry m2 -> mapply m1 (pt 0 0 0) = mapply m2 (pt 0 0 0) ->
    reflected asort s1 m1 (on_paraboloid f1 ap1 off1) w1 w2 -> reflected asort s2 m2 (on_paraboloid f2 ap2 off2) w2 w3 ->
    row_tilt w1 = mapply m1 (V4 (-1) 0 0 0) -> 2 * f1 + depth_of m1 w1 < vnorm (vsub (here (row_end w2)) (here (row_end w1))) ->
    row_tilt w3 = mapply m2 (V4 1 0 0 0) /\
    vnorm (vsub (here (row_end w2)) (here (row_end w1))) = (2 * f1 + depth_of m1 w1) + (2 * f2 + depth_of m2 w2))).
Proof. exact confocal_traced. Qed.
Print Assumptions C101_confocal_mirrors.

(** Rays along a radius of a spherical mirror go back the way they came; rays along its axis cross the axis near
    half its radius, nearer the closer they ran to it *)
Theorem C101_spherical_mirror : forall asort r t ap off, argsort_ok asort -> ap_ok ap -> 0 <= t -> r <> 0 -> sqrt (fst off * fst off + snd off * snd off) + reach ap <= Rabs r ->
  built asort (spherical_mirror (Fin r) t ap off Mirror) (fun s0 => forall m w w', isometry m -> reflected asort s0 m (on_sphere r ap off) w w' ->
    row_idx w' = row_idx w /\
    ((exists c, here (row_end w) = vadd (mapply m (pt r 0 0)) (vscale c (row_tilt w))) -> row_tilt w' = vopp (row_tilt w)) /\
    (row_tilt w = mapply m (V4 (- (r / Rabs r)) 0 0 0) -> let k := Rabs (r - depth_of m w) in let focus := r - r * Rabs r / (2 * k) in
       0 < k <= Rabs r /\ beyond w w' (r * r / (2 * k)) = mapply m (pt focus 0 0) /\ Rabs (focus - r / 2) <= (r * r - k * k) / (2 * k))).
Proof. exact sphere_traced. Qed.
Print Assumptions C101_spherical_mirror.

(** Behind a plane mirror every point has its image: a ray that came along a line through a point leaves as if it came
    from the image, over the same distance *)
Theorem C101_plane_mirror : forall asort t ap off, argsort_ok asort -> ap_ok ap -> 3 / 100000000 <= t ->
  built asort (plane_mirror t ap off Mirror) (fun s0 => forall side m w w', side = t / 2 \/ side = - (t / 2) -> isometry m -> reflected asort s0 m (on_plate side ap off) w w' ->
    row_idx w' = row_idx w /\
    forall c x y z, here (row_end w) = vadd (mapply m (pt x y z)) (vscale c (row_tilt w)) ->
      here (row_end w) = vadd (mapply m (pt (2 * side - x) y z)) (vscale c (row_tilt w'))).
Proof. exact plate_traced. Qed.
Print Assumptions C101_plane_mirror.

(** A ray meets the mirror of focal length 1 at (0, 2, 0), passes the focus, meets it again at (0, -2, 0), and leaves *)
Example C101_parabolic_case : forall asort, argsort_ok asort -> forall P, built asort (parabolic_mirror 1 1 (Round 8) (0, 0) Mirror) P ->
  exists s w1 w2 w3, P s /\ reflected asort s mid (on_paraboloid 1 (Round 8) (0, 0)) w1 w2 /\ reflected asort s mid (on_paraboloid 1 (Round 8) (0, 0)) w2 w3 /\
    row_tilt w1 = mapply mid (V4 (-1) 0 0 0) /\ 2 * 1 + depth_of mid w1 < vnorm (vsub (here (row_end w2)) (here (row_end w1))) /\
    here (row_end w2) = vadd (mapply mid (pt 0 0 0)) (vscale 2 (row_tilt w2)).
Proof.
  intros asort AS P BU. destruct (bowl_case asort AS P BU) as (s & w1 & w2 & w3 & PS & R1 & R2 & T1 & E1 & E2 & T2). exists s, w1, w2, w3. do 4 (split; [assumption|]). split.
  - unfold depth_of. rewrite E1, E2, !mid_at. unfold vnorm, pt, vsub, vadd, vopp, vscale, vdot; cbn [vx vy vz vw].
    replace ((0 + -1 * 0) * (0 + -1 * 0) + (-2 + -1 * 2) * (-2 + -1 * 2) + (0 + -1 * 0) * (0 + -1 * 0) + (1 + -1 * 1) * (1 + -1 * 1)) with (4 * 4) by ring. rewrite sqrt_square by lra. lra.
  - rewrite E2, T2, mid_at. unfold pt, vadd, vscale; cbn [vx vy vz vw]. f_equal; ring.
Qed.
Example C101_spherical_case_centre : forall asort, argsort_ok asort -> forall P, built asort (spherical_mirror (Fin 25) 1 (Round 50) (0, 0) Mirror) P ->
  exists s w w', P s /\ reflected asort s mid (on_sphere 25 (Round 50) (0, 0)) w w' /\ exists c, here (row_end w) = vadd (mapply mid (pt 25 0 0)) (vscale c (row_tilt w)).
Proof. exact round_centre. Qed.
Example C101_spherical_case_parallel : forall asort, argsort_ok asort -> forall P, built asort (spherical_mirror (Fin 25) 1 (Round 50) (0, 0) Mirror) P ->
  exists s w w', P s /\ reflected asort s mid (on_sphere 25 (Round 50) (0, 0)) w w' /\ row_tilt w = mapply mid (V4 (- (25 / Rabs 25)) 0 0 0) /\ here (row_end w) = pt 1 7 0.
Proof. exact round_parallel. Qed.
Example C101_plane_case : forall asort, argsort_ok asort -> forall P, built asort (plane_mirror 1 (Round 8) (0, 0) Mirror) P ->
  exists s w w', P s /\ reflected asort s mid (on_plate (1 / 2) (Round 8) (0, 0)) w w' /\ here (row_end w) = vadd (mapply mid (pt (9 / 2) 3 0)) (vscale 5 (row_tilt w)).
Proof. exact plate_case. Qed.
Example C101_sizes : ap_ok (Round 8) /\ 1 / 10000000 <= reach (Round 8) * reach (Round 8) / (4 * 1) /\ ap_ok (Round 50) /\
  sqrt (fst (0, 0) * fst (0, 0) + snd (0, 0) * snd (0, 0)) + reach (Round 50) <= Rabs 25 /\ isometry mid.
Proof.
  split; [simpl; lra|]. split; [simpl; lra|]. split; [simpl; lra|]. split; [|apply id_iso]. cbn [fst snd reach]. rewrite Rmult_0_l, Rplus_0_l, sqrt_0, Rabs_right by lra. lra.
Qed.
