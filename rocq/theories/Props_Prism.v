(** * Props_Prism: what an equilateral prism does to the rays that pass it *)
From Coq Require Import Reals List Bool ZArith Lra.
Import ListNotations.
From Verif Require Import XR Lin Csg CsgProps Prim Surf World Tracer SpecTrace SpecOptics Components SpecComponents SpecMotion Utils SpecPrism PrismProps PrismSpectrum PrismExamples2 PrismExamples4.
From Verif Require SpecUtils.
Open Scope R_scope.

(** C96.  [s0] is the prism as the factory makes it, [m] where a rigid motion takes it, [w1 w2 w3] three
    consecutive rows of one ray in any trace of any scene with the prism in it: up to the left face, on to the right
    face, and what follows.  [a] is how far up the left face the ray runs, [y] how far along the edges. *)
Theorem C96_prism_refracts_twice : forall asort, argsort_ok asort -> forall side width idx, 1 / 1000000 <= side -> 1 / 1000000 <= width ->
  built asort (equilateral_prism side width (Refractor idx)) (fun s0 =>
    forall m w1 w2 w3, isometry m -> traced_through asort s0 side width m w1 w2 w3 ->
    forall n, idx (row_wl w1) = Fin n ->
    let a := rise m w1 in let y := skew m w1 in let b := descent n a y in
    a * a + y * y < n * n ->
    row_idx w2 = n /\ n * rise m w2 = a /\ n * skew m w2 = y /\ vdot (row_tilt w2) (mapply m out_left) < 0 /\ 0 < vdot (row_tilt w2) (mapply m out_right) /\
    (b * b + y * y < 1 -> row_idx w3 = 1 /\ vdot (row_tilt w3) (mapply m down_right) = b /\ skew m w3 = y /\ 0 < vdot (row_tilt w3) (mapply m out_right)) /\
    (1 <= b * b + y * y -> row_idx w3 = n /\ mirrored (row_tilt w2) (row_tilt w3) (mapply m out_right))).
Proof. exact prism_rows. Qed.
Print Assumptions C96_prism_refracts_twice.

(** A ray in the plane of the triangles comes in at the angle [asin a] to the left face's normal and leaves turned
    downwards, to the base, by [deviation]; never by less than [least], and by that much at one angle only *)
Theorem C96_prism_deviation : forall asort, argsort_ok asort -> forall side width idx, 1 / 1000000 <= side -> 1 / 1000000 <= width ->
  built asort (equilateral_prism side width (Refractor idx)) (fun s0 =>
    forall m w1 w2 w3, isometry m -> traced_through asort s0 side width m w1 w2 w3 ->
    forall n, idx (row_wl w1) = Fin n -> 1 <= n -> skew m w1 = 0 ->
    let a := rise m w1 in let b := descent n a 0 in b * b < 1 ->
    let least := 2 * asin (n / 2) - PI / 3 in let deviation := asin a + asin b - PI / 3 in
    row_tilt w1 = mapply m (slanted (asin a - PI / 6)) /\
    row_tilt w3 = mapply m (slanted (asin a - PI / 6 - deviation)) /\
    n < 2 /\ 0 <= least <= deviation /\ (1 < n -> (deviation = least <-> a = n / 2))).
Proof. exact prism_deviation. Qed.
Print Assumptions C96_prism_deviation.

(** Two colours along one line: a catalogue glass turns the shorter wave further to the base *)
Theorem C96_prism_spreads_colours : forall asort, argsort_ok asort -> forall side width g, 1 / 1000000 <= side -> 1 / 1000000 <= width -> g <> Ideal ->
  built asort (equilateral_prism side width (glass_material g)) (fun s0 =>
    forall m w1 w2 w3 v1 v2 v3, isometry m -> traced_through asort s0 side width m w1 w2 w3 -> traced_through asort s0 side width m v1 v2 v3 ->
    row_tilt w1 = row_tilt v1 -> SpecUtils.visible (row_wl w1) -> SpecUtils.visible (row_wl v1) -> row_wl w1 < row_wl v1 ->
    row_idx w3 = 1 -> row_idx v3 = 1 ->
    vdot (row_tilt v3) (mapply m down_right) < vdot (row_tilt w3) (mapply m down_right) /\
    (skew m w1 = 0 -> exists e long short, 0 <= long < short /\ row_tilt w1 = mapply m (slanted e) /\
       row_tilt v3 = mapply m (slanted (e - long)) /\ row_tilt w3 = mapply m (slanted (e - short)))).
Proof. exact prism_disperses. Qed.
Print Assumptions C96_prism_spreads_colours.

(** Two colours sent from one point along one line in the plane of the triangles: the shorter wave leaves further
    down the right face, and wherever the two rows after the prism end, the shorter wave ends on the base's side of the
    longer wave's path.  ([slanted f] is the direction of that path, [slanted (f - PI / 2)] its normal to the base's side.) *)
Theorem C96_spectrum_is_in_order : forall asort, argsort_ok asort -> forall side width g, 1 / 1000000 <= side -> 1 / 1000000 <= width -> g <> Ideal ->
  built asort (equilateral_prism side width (glass_material g)) (fun s0 =>
    forall m w1 w2 w3 v1 v2 v3, isometry m -> traced_through asort s0 side width m w1 w2 w3 -> traced_through asort s0 side width m v1 v2 v3 ->
    row_start w1 = row_start v1 -> row_tilt w1 = row_tilt v1 -> skew m w1 = 0 ->
    SpecUtils.visible (row_wl w1) -> SpecUtils.visible (row_wl v1) -> row_wl w1 < row_wl v1 -> row_idx w3 = 1 -> row_idx v3 = 1 ->
    0 < vdot (vsub (row_end w2) (row_end v2)) (mapply m down_right) /\
    exists f, row_tilt v3 = mapply m (slanted f) /\
      vdot (vsub (row_end w3) (row_end v3)) (mapply m edgewise) = 0 /\
      0 < vdot (vsub (row_end w3) (row_end v3)) (mapply m (slanted (f - PI / 2)))).
Proof. exact prism_spectrum. Qed.
Print Assumptions C96_spectrum_is_in_order.

(** So on any screen that both reach, they stand in the order of the wavelengths: [down] is the direction on the screen
    that leads to the base's side of the longer wave's path, and the shorter wave lands further along it. *)
Theorem C96_spectrum_on_a_screen : forall asort, argsort_ok asort -> forall side width g, 1 / 1000000 <= side -> 1 / 1000000 <= width -> g <> Ideal ->
  built asort (equilateral_prism side width (glass_material g)) (fun s0 =>
    forall m w1 w2 w3 v1 v2 v3, isometry m -> traced_through asort s0 side width m w1 w2 w3 -> traced_through asort s0 side width m v1 v2 v3 ->
    row_start w1 = row_start v1 -> row_tilt w1 = row_tilt v1 -> skew m w1 = 0 ->
    SpecUtils.visible (row_wl w1) -> SpecUtils.visible (row_wl v1) -> row_wl w1 < row_wl v1 -> row_idx w3 = 1 -> row_idx v3 = 1 ->
    forall f down k, row_tilt v3 = mapply m (slanted f) -> 0 < vdot down (mapply m (slanted (f - PI / 2))) ->
    row_end w3 = vadd (row_end v3) (vscale k down) -> 0 < k).
Proof. exact prism_screen. Qed.
Print Assumptions C96_spectrum_on_a_screen.

(** The ray of least deviation through a prism of side 2 and index 6/5 ... *)
Example C96_a_ray_passes : forall asort, argsort_ok asort ->
  exists s w1 w2 w3, traced_through asort s 2 2 mid w1 w2 w3 /\ skew mid w1 = 0 /\ rise mid w1 = 3 / 5 /\ row_idx w3 = 1 /\
  row_tilt w3 = mapply mid (slanted (PI / 6 - asin (3 / 5))).
Proof.
  intros asort AS.
  destruct (prism_case asort AS _ (C96_prism_deviation asort AS 2 2 (fun _ => Fin (6 / 5)) ltac:(lra) ltac:(lra))) as (s & w1 & w2 & w3 & H & T & Y & A & X).
  exists s, w1, w2, w3. specialize (H mid w1 w2 w3 PrismExamples2.id_iso T (6 / 5) eq_refl ltac:(lra) Y). cbv zeta in H. rewrite A in H.
  assert (D : descent (6 / 5) (3 / 5) 0 = 3 / 5).
  { unfold descent. replace (6 / 5 * (6 / 5) - 3 / 5 * (3 / 5) - 0 * 0) with (9 / 25 * 3) by field. rewrite sqrt_mult by lra.
    replace (9 / 25) with (3 / 5 * (3 / 5)) by field. rewrite sqrt_square by lra. pose proof (sqrt_sqrt 3 ltac:(lra)) as K2.
    transitivity (3 / 10 * (sqrt 3 * sqrt 3) - 3 / 10); [field|rewrite K2; field]. }
  rewrite D in H. destruct H as (_ & T3 & _); [lra|]. repeat split; auto. rewrite T3. do 2 f_equal. field.
Qed.
(** ... and light of 0.5 and 0.6 micrometres through one of BK7, where the theorem on colours applies *)
Example C96_two_colours_pass : forall asort, argsort_ok asort ->
  exists s w1 w2 w3 v1 v2 v3, traced_through asort s 2 2 mid w1 w2 w3 /\ traced_through asort s 2 2 mid v1 v2 v3 /\
  row_tilt w1 = row_tilt v1 /\ row_wl w1 = 5 / 10 /\ row_wl v1 = 6 / 10 /\ row_idx w3 = 1 /\ row_idx v3 = 1 /\
  vdot (row_tilt v3) down_right < vdot (row_tilt w3) down_right.
Proof.
  intros asort AS.
  destruct (prism_colours asort AS _ (C96_prism_spreads_colours asort AS 2 2 BK7 ltac:(lra) ltac:(lra) ltac:(discriminate)))
    as (s & w1 & w2 & w3 & v1 & v2 & v3 & H & T & T' & E & W & W' & X & X' & Y & A & _).
  exists s, w1, w2, w3, v1, v2, v3. repeat split; auto.
  destruct (H mid w1 w2 w3 v1 v2 v3 PrismExamples2.id_iso T T' E) as (L & _); auto; unfold SpecUtils.visible; try lra.
  rewrite !PrismExamples2.mid_at in L. exact L.
Qed.
Example C96_two_colours_spread : forall asort, argsort_ok asort ->
  exists s w1 w2 w3 v1 v2 v3, traced_through asort s 2 2 mid w1 w2 w3 /\ traced_through asort s 2 2 mid v1 v2 v3 /\
  row_start w1 = row_start v1 /\ row_tilt w1 = row_tilt v1 /\ skew mid w1 = 0 /\ row_wl w1 = 5 / 10 /\ row_wl v1 = 6 / 10 /\ row_idx w3 = 1 /\ row_idx v3 = 1 /\
  0 < vdot (vsub (row_end w2) (row_end v2)) down_right.
Proof.
  intros asort AS.
  destruct (prism_colours asort AS _ (C96_spectrum_is_in_order asort AS 2 2 BK7 ltac:(lra) ltac:(lra) ltac:(discriminate)))
    as (s & w1 & w2 & w3 & v1 & v2 & v3 & H & T & T' & E & W & W' & X & X' & Y & A & O).
  exists s, w1, w2, w3, v1, v2, v3. repeat split; auto.
  destruct (H mid w1 w2 w3 v1 v2 v3 PrismExamples2.id_iso T T' O E Y) as (L & _); auto; unfold SpecUtils.visible; try lra.
  rewrite !PrismExamples2.mid_at in L. exact L.
Qed.
