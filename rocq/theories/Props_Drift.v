(** * C117: how far rounding takes moved objects from where they should be *)
From Coq Require Import Reals List Bool ZArith Permutation Lra Lia.
Import ListNotations.
From Verif Require Import XR XRFacts Lin LinFacts World SpecWorld WorldFacts3 Fl FlHits SpecFl FlFacts FlProps FlBinary FlStepBinary FlWorld SpecFlWorld FlWorldFacts FlWorldProps FlWorldMoves FlWorldExamples.
Open Scope R_scope.

(** An object moved and turned [n] times in an arithmetic of relative error [u] is, relative to the largest distance [P] it ever
    had from the origin, within [e = (1 + c)^n - 1] of its exact place, where [c] is 21 [u] and the error of sine and cosine; its
    axes are within [2 e] of the exact axes, the direction it reports within [2 e + 20 u], and no call raises. *)
Theorem C117_objects_drift_slowly : forall rnd fsin fcos u eta delta A,
  0 <= u <= / 1000000 -> 0 <= eta <= u * / 1000000 -> rounds_within u eta rnd -> leaves_numbers rnd -> 0 <= delta -> trig_within delta rnd fsin fcos -> 1 <= A ->
  forall os r, Forall (gentle rnd A) os -> fl_history rnd fsin fcos os r -> let e := drift (per_movement u delta A) (length os) in e <= / 2 ->
  exists st m, r = Some st /\ composed os = Some m /\
    (forall P, 16 * eta <= u * P -> stays_within P os -> vnorm (vsub (fl_position st) (mapply m (point 0 0 0))) <= e * P) /\
    vnorm (vsub (fl_orientation st) (mapply m (vector 0 0 1))) <= 2 * e + 20 * u /\
    (forall v, vw v = 0 -> vnorm (vsub (mapply (fl_world st) v) (mapply m v)) <= 2 * e * vnorm v) /\
    row3 (fl_world st) = V4 0 0 0 1.
Proof. exact objects_drift. Qed.
Print Assumptions C117_objects_drift_slowly.

(** In binary64, with a sine and cosine good to four units: after [n] movements, up to 2^30, the place is off by at most
    [n] times 2e-14 of the largest distance. *)
Theorem C117_in_binary64 : forall fsin fcos, trig_within (4 * u64) binary64 fsin fcos ->
  forall os r, Forall (gentle binary64 7) os -> fl_history binary64 fsin fcos os r -> (Z.of_nat (length os) <= 2 ^ 30)%Z ->
  let e := INR (length os) * / 50000000000000 in
  exists st m, r = Some st /\ composed os = Some m /\
    (forall P, / 1000000000000 <= P -> stays_within P os -> vnorm (vsub (fl_position st) (mapply m (point 0 0 0))) <= e * P) /\
    vnorm (vsub (fl_orientation st) (mapply m (vector 0 0 1))) <= 2 * e + / 100000000000000.
Proof. exact drift_in_binary64. Qed.
Print Assumptions C117_in_binary64.
(** the hypotheses are met: a correctly rounded sine and cosine, and a tour of moves and turns, which has a history *)
Example C117_tour : trig_within (4 * u64) binary64 sin64 cos64 /\ Forall (gentle binary64 7) tour /\ exists st, fl_history binary64 sin64 cos64 tour (Some st).
Proof.
  split; [exact trig64|]. split; [exact tour_gentle|]. pose proof u64_small.
  apply (histories_exist binary64 sin64 cos64 u64 eta64 (4 * u64) 7 u64_small eta64_small binary64_rounds leaves64 ltac:(lra) trig64 ltac:(lra)); [exact tour_gentle|].
  apply drift64. cbn. lia.
Qed.

(** Movements that bring an object back to where it was bring it back up to that drift. *)
Theorem C117_round_trips_return : forall fsin fcos, trig_within (4 * u64) binary64 fsin fcos ->
  forall os r, Forall (gentle binary64 7) os -> fl_history binary64 fsin fcos os r -> (Z.of_nat (length os) <= 2 ^ 30)%Z ->
  composed os = Some mid -> let e := INR (length os) * / 50000000000000 in
  exists st, r = Some st /\
    (forall P, / 1000000000000 <= P -> stays_within P os -> vnorm (vsub (fl_position st) (point 0 0 0)) <= e * P) /\
    vnorm (vsub (fl_orientation st) (vector 0 0 1)) <= 2 * e + / 100000000000000.
Proof.
  intros fsin fcos TW os r G H N C e. destruct (drift_in_binary64 fsin fcos TW os r G H N) as (st & m & R & C' & B & O).
  rewrite C in C'. injection C' as <-. rewrite mapply_mid in O. exists st. split; [exact R|]. split; [|exact O].
  intros P HP SW. specialize (B P HP SW). rewrite mapply_mid in B. exact B.
Qed.
Print Assumptions C117_round_trips_return.
Example C117_there_and_back : composed [Move 3 0 0; Move (-3) 0 0] = Some mid /\ Forall (gentle binary64 7) [Move 3 0 0; Move (-3) 0 0].
Proof.
  split.
  - cbn. f_equal. unfold mid. unfold mmul. vsimp. repeat f_equal; ring.
  - repeat match goal with |- Forall _ (_ :: _) => constructor | |- Forall _ [] => constructor end; cbn [gentle]; repeat split; apply int_number; reflexivity.
Qed.

(** One move rounds each coordinate of the place once, whatever was done to the object before, and leaves its axes alone. *)
Theorem C117_a_move_rounds_once : forall rnd fsin fcos, leaves_numbers rnd ->
  forall os st x y z st', Forall no_matrix os -> fl_history rnd fsin fcos os (Some st) -> rnd x = x -> rnd y = y -> rnd z = z ->
  fl_call rnd fsin fcos st (Move x y z) (Some st') ->
  fl_position st' = point (rnd (vx (fl_position st) + x)) (rnd (vy (fl_position st) + y)) (rnd (vz (fl_position st) + z)) /\
  (forall v, vw v = 0 -> mapply (fl_world st') v = mapply (fl_world st) v).
Proof.
  intros rnd fsin fcos LN os st x y z st' N H X Y Z C. pose proof (history_sound rnd fsin fcos LN os _ H N st eq_refl) as S.
  destruct (move_call rnd fsin fcos LN st x y z st' S X Y Z C) as (P & V & _). auto.
Qed.
Print Assumptions C117_a_move_rounds_once.

(** Moves alone add up from left to right, with one rounding each, and never turn the object. *)
Theorem C117_moves_add_up : forall rnd fsin fcos, leaves_numbers rnd ->
  forall os st, Forall (is_move rnd) os -> fl_history rnd fsin fcos os (Some st) ->
  fl_position st = tally rnd (point 0 0 0) os /\ (forall v, vw v = 0 -> mapply (fl_world st) v = v).
Proof. intros rnd fsin fcos LN os st M H. destruct (moves_only rnd fsin fcos LN os _ H M st eq_refl) as (P & V & _). auto. Qed.
Print Assumptions C117_moves_add_up.
(** whole numbers: the place is the exact sum *)
Example C117_steps : Forall (is_move binary64) [Move 1 2 3; Move 4 5 6] /\ tally binary64 (point 0 0 0) [Move 1 2 3; Move 4 5 6] = point 5 7 9.
Proof.
  split; [repeat constructor; apply int_number; reflexivity|]. cbn [tally point vx vy vz].
  rewrite !Rplus_0_l, !int_number by reflexivity. rewrite <- !plus_IZR. rewrite !int_number by reflexivity. reflexivity.
Qed.

(** Two parts put in place one after the other and then moved together keep their distance up to both drifts. *)
Theorem C117_parts_stay_together : forall rnd fsin fcos u eta delta A,
  0 <= u <= / 1000000 -> 0 <= eta <= u * / 1000000 -> rounds_within u eta rnd -> leaves_numbers rnd -> 0 <= delta -> trig_within delta rnd fsin fcos -> 1 <= A ->
  forall place place' os r r', Forall (gentle rnd A) (place ++ os) -> Forall (gentle rnd A) (place' ++ os) ->
  fl_history rnd fsin fcos (place ++ os) r -> fl_history rnd fsin fcos (place' ++ os) r' ->
  let e := drift (per_movement u delta A) (length (place ++ os)) in let e' := drift (per_movement u delta A) (length (place' ++ os)) in e <= / 2 -> e' <= / 2 ->
  forall P, 16 * eta <= u * P -> stays_within P (place ++ os) -> stays_within P (place' ++ os) ->
  exists st st' m m', r = Some st /\ r' = Some st' /\ composed place = Some m /\ composed place' = Some m' /\
    Rabs (vnorm (vsub (fl_position st) (fl_position st')) - vnorm (vsub (mapply m (point 0 0 0)) (mapply m' (point 0 0 0)))) <= (e + e') * P.
Proof. exact parts_together. Qed.
Print Assumptions C117_parts_stay_together.

(** The drift is not relative to where the object ends: moved by 2^-20, by 2^35 and back by 2^35, in binary64 the object stands at
    the origin again and the first move is lost. *)
Theorem C117_small_moves_are_lost_refuted : forall fsin fcos,
  (forall st, fl_history binary64 fsin fcos lost (Some st) -> fl_position st = point 0 0 0) /\
  exists m, composed lost = Some m /\ mapply m (point 0 0 0) = point tiny 0 0 /\ 0 < tiny.
Proof.
  intros fsin fcos. split.
  - intros st H. destruct (moves_only binary64 fsin fcos leaves64 lost _ H lost_moves st eq_refl) as (P & _). rewrite P. exact lost_tally.
  - destruct lost_exact as (m & C & E). exists m. split; [exact C|]. split; [exact E|]. apply Flocq.Core.Raux.bpow_gt_0.
Qed.
Print Assumptions C117_small_moves_are_lost_refuted.
Example C117_lost_happens : exists st, fl_history binary64 sin64 cos64 lost (Some st). Proof. exact lost_history. Qed.
