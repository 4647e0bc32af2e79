(** * Property C123: baffles and aperture stops *)
From Coq Require Import Reals List ZArith Lra.
Import ListNotations.
From Verif Require Import XR Arr Lin Prim Surf SpecGeom SpecTree CsgProps Tracer Components SpecComponents SpecStop StopFacts StopFacts2 StopFacts3.
Open Scope R_scope.

(** A baffle absorbs every ray that crosses it, at the crossing, and no other ray.  (Its two
    sizes come out exchanged, see C52.) *)
Theorem C123_baffles_absorb : forall asort a b, argsort_ok asort -> 0 <= a -> 0 <= b ->
  built asort (baffle (Pair a b)) (fun s =>
    forall c x y z dx dy dz, c_ray c = Ray (pt x y z) (V4 dx dy dz 0) -> clear_vector (V4 dx dy dz 0) -> dx <> 0 ->
      (forall q, 0 < q -> x + q * dx = 0 -> in_aperture (Pair b a) (0, 0) (y + q * dy) (z + q * dz) -> absorbed_at asort s c q) /\
      ((forall q, 0 < q -> x + q * dx = 0 -> ~ in_aperture (Pair b a) (0, 0) (y + q * dy) (z + q * dz)) -> let_by asort s c)).
Proof. exact baffle_absorbs. Qed.
Print Assumptions C123_baffles_absorb.

(** A ray that crosses the plate of a stop outside its opening is absorbed there.  Missing:
    sorts that may exchange equal numbers, for which it is false. *)
Theorem C123_stops_absorb_partial : forall asort a b op, argsort_ok asort -> keeps_ties asort -> 0 <= a -> 0 <= b -> ap_ok op ->
  built asort (aperture (Pair a b) op) (fun s =>
    forall c x y z dx dy dz, c_ray c = Ray (pt x y z) (V4 dx dy dz 0) -> clear_towards op (V4 dx dy dz 0) -> dx <> 0 ->
      forall q, 0 < q -> x + q * dx = 0 -> in_open_aperture (Pair a b) (0, 0) (y + q * dy) (z + q * dz) ->
      ~ in_aperture op (0, 0) (y + q * dy) (z + q * dz) -> absorbed_at asort s c q).
Proof. exact stops_absorb. Qed.
Print Assumptions C123_stops_absorb_partial.

(** A ray that crosses the plate inside the opening is let by, however ties are sorted. *)
Theorem C123_openings_let_by : forall asort a b op, argsort_ok asort -> 0 <= a -> 0 <= b -> ap_ok op ->
  built asort (aperture (Pair a b) op) (fun s =>
    forall c x y z dx dy dz, c_ray c = Ray (pt x y z) (V4 dx dy dz 0) -> clear_towards op (V4 dx dy dz 0) -> dx <> 0 ->
      forall q, x + q * dx = 0 -> in_aperture (Pair a b) (0, 0) (y + q * dy) (z + q * dz) ->
      in_open_aperture op (0, 0) (y + q * dy) (z + q * dz) -> let_by asort s c).
Proof. exact stops_let_by. Qed.
Print Assumptions C123_openings_let_by.

(** Whatever the ray, a stop lets it by or absorbs it on its plate outside the opening; in
    particular the solid that cuts the opening, whose material cannot be traced, is never hit. *)
Theorem C123_stops_do_nothing_else_partial : forall asort a b op, argsort_ok asort -> keeps_ties asort -> 0 <= a -> 0 <= b -> ap_ok op ->
  built asort (aperture (Pair a b) op) (fun s =>
    forall c x y z dx dy dz, c_ray c = Ray (pt x y z) (V4 dx dy dz 0) -> clear_towards op (V4 dx dy dz 0) -> ~ (dx = 0 /\ dy = 0 /\ dz = 0) ->
      let_by asort s c \/
      exists q, 0 < q /\ absorbed_at asort s c q /\ x + q * dx = 0 /\ in_aperture (Pair a b) (0, 0) (y + q * dy) (z + q * dz) /\
        ~ in_open_aperture op (0, 0) (y + q * dy) (z + q * dz)).
Proof. exact stops_do_nothing_else. Qed.
Print Assumptions C123_stops_do_nothing_else_partial.

(** What numpy promises of argsort is not enough: with a sort that exchanges equal numbers, the
    ray that crosses a plate of 4 by 4 at (0, 3/2, 0), outside its round opening of diameter 2, is let by. *)
Theorem C123_ties_refuted : exists asort, argsort_ok asort /\
  built asort (aperture (Pair 4 4) (Round 2)) (fun s => forall c, c_ray c = Ray (pt (-1) (3 / 2) 0) (V4 1 0 0 0) -> let_by asort s c).
Proof. exact stops_need_ties. Qed.
Print Assumptions C123_ties_refuted.

(** The stable sort keeps ties.  The ray from (-3, -4, 3/2) along (3/5, 4/5, 0) crosses that plate
    outside the opening, the one from (-3, -4, 1/2) inside it. *)
Example C123_hypotheses : argsort_ok (argsort_stable xsle PInf) /\ keeps_ties (argsort_stable xsle PInf) /\ ap_ok (Round 2) /\
  clear_towards (Round 2) (V4 (3 / 5) (4 / 5) 0 0) /\ -3 + 5 * (3 / 5) = 0 /\
  in_open_aperture (Pair 4 4) (0, 0) (-4 + 5 * (4 / 5)) (3 / 2 + 5 * 0) /\ ~ in_aperture (Round 2) (0, 0) (-4 + 5 * (4 / 5)) (3 / 2 + 5 * 0) /\
  in_aperture (Pair 4 4) (0, 0) (-4 + 5 * (4 / 5)) (1 / 2 + 5 * 0) /\ in_open_aperture (Round 2) (0, 0) (-4 + 5 * (4 / 5)) (1 / 2 + 5 * 0).
Proof.
  split; [exact argsort_ok_stable|]. split; [exact stable_keeps_ties|]. split; [cbn; lra|]. split.
  - unfold clear_towards, clear, atol; cbn [vx vy vz]. split; [right; rewrite Rabs_right; lra|]. split; [right; rewrite Rabs_right; lra|].
    split; [left; reflexivity|]. right; rewrite Rabs_right; lra.
  - split; [lra|]. cbn. split; [split; apply Rabs_def1; lra|]. split; [lra|]. split; [split; apply Rabs_le; lra|]. lra.
Qed.
