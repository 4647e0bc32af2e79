(** * Property C23, exactly: which movements fail and what a failed one leaves behind *)
From Coq Require Import Reals List Bool Arith Lia Lra.
Import ListNotations.
From Verif Require Import XR XRFacts Lin LinFacts Prim Csg Surf World SpecWorld WorldFacts3 WorldExamples WorldProps SpecMove MoveFails.
Open Scope R_scope.

(** [no_set] excludes the assignment of members to a finished group, which alone can put a
    group inside itself (moving that never ends, C24). *)

(** A movement that is not rejected outright succeeds exactly when every part can be given
    all the transforms it passes through (several if it is listed several times). *)
Theorem C23_which_movements_succeed :
  forall asort cs h l o m t, run_prog asort cs empty_heap = Ok h -> Forall no_set cs ->
  get h l = Some o -> motion_matrix m = Some t ->
  ((exists h', apply_motion asort l m h = Ok h') <->
   forall x ox k, get h x = Some ox -> (1 <= k <= times h l x)%nat ->
     can_take (mmul (power k t) (get_world_transform ox))).
Proof. exact which_succeed. Qed.
Print Assumptions C23_which_movements_succeed.

(** When it fails, the walk over the parts ([pre], then [p]) has stopped at a part [p].
    Every object has moved as often as it was met up to and including [p]; all but [p] are
    consistent, the same things with the same parts; [p] has the new world transform and
    position but the inverse of its previous transform. *)
Theorem C23_what_a_failed_movement_leaves :
  forall asort cs h l o m t e h', run_prog asort cs empty_heap = Ok h -> Forall no_set cs ->
  get h l = Some o -> motion_matrix m = Some t -> apply_motion asort l m h = Raise e h' ->
  (e = ValueError \/ e = LinAlgError) /\
  exists pre p post, parts h l = pre ++ p :: post /\
   (forall x ox, get h x = Some ox -> exists ox', get h' x = Some ox' /\ o_id ox' = o_id ox /\ o_kind ox' = o_kind ox /\
      get_world_transform ox' = mmul (power (count_occ Nat.eq_dec (pre ++ [p]) x) t) (get_world_transform ox) /\
      (x <> p -> consistent ox') /\
      (x = p -> ~ can_take (get_world_transform ox') /\ ~ consistent ox' /\
         is_inverse (mmul (power (count_occ Nat.eq_dec pre p) t) (get_world_transform ox)) (get_object_transform ox') /\
         get_position ox' = to_world_coordinates ox' (point 0 0 0))).
Proof. exact what_is_left. Qed.
Print Assumptions C23_what_a_failed_movement_leaves.

(** In particular a movement without an inverse always fails, and touches the object it was
    called on alone: neither its parts nor anything else. *)
Theorem C23_movements_without_inverse_fail :
  forall asort cs h l o m t, run_prog asort cs empty_heap = Ok h -> Forall no_set cs ->
  get h l = Some o -> motion_matrix m = Some t -> (forall i, ~ is_inverse t i) ->
  exists e h' o', apply_motion asort l m h = Raise e h' /\ (forall x, x <> l -> get h' x = get h x) /\ get h' l = Some o' /\
    get_world_transform o' = mmul t (get_world_transform o) /\ get_object_transform o' = get_object_transform o /\
    get_position o' = to_world_coordinates o' (point 0 0 0) /\ o_box o' = o_box o /\ o_id o' = o_id o /\ o_kind o' = o_kind o /\
    (e = ValueError /\ get_orientation o' = get_orientation o \/ e = LinAlgError).
Proof. exact singular_fails. Qed.
Print Assumptions C23_movements_without_inverse_fail.

(** Both happen with a group that lists a cube twice: scale(0, 1, 1) fails in the group,
    scale(1e-4, 1e-4, 1e-4) fails the second time it comes to the cube. *)
Example C23_failures_occur : forall asort, exists h o t t0,
  run_prog asort [CSurface unit_cube Absorber; CGroup [0%nat; 0%nat]] empty_heap = Ok h /\
  Forall no_set [CSurface unit_cube Absorber; CGroup [0%nat; 0%nat]] /\ get h 1%nat = Some o /\ parts h 1%nat = [1; 0; 0]%nat /\
  motion_matrix (Scale 0 1 1) = Some t0 /\ (forall i, ~ is_inverse t0 i) /\
  motion_matrix (Scale (/ 10000) (/ 10000) (/ 10000)) = Some t /\ can_take (mmul (power 1 t) mid) /\ ~ can_take (mmul (power 2 t) mid) /\
  exists e h', apply_motion asort 1%nat (Scale (/ 10000) (/ 10000) (/ 10000)) h = Raise e h'.
Proof.
  intro asort. assert (R : exists h, run_prog asort [CSurface unit_cube Absorber; CGroup [0%nat; 0%nat]] empty_heap = Ok h /\
    (exists o, get h 1%nat = Some o) /\ parts h 1%nat = [1; 0; 0]%nat /\ exists o, get h 0%nat = Some o /\ get_world_transform o = mid).
  { eexists. split; [go; reflexivity|]. split; [eexists; reflexivity|]. split; [reflexivity|]. eexists. split; reflexivity. }
  destruct R as (h & R & (o & G1) & P & o0 & G0 & W0). exists h, o. do 2 eexists. split; [exact R|]. split; [repeat constructor|]. split; [exact G1|]. split; [exact P|].
  assert (Z : rltb 0 0 = false) by (apply rltb_false; lra). assert (O : rltb 1 0 = false) by (apply rltb_false; lra). assert (E : rltb (/ 10000) 0 = false) by (apply rltb_false; lra).
  split; [cbn [motion_matrix]; rewrite Z, O; reflexivity|]. split.
  { intros i I. apply is_inverse_det in I. apply I. unfold mdet. cbn [row0 row1 row2 row3 vx vy vz vw]. ring. }
  split; [cbn [motion_matrix]; rewrite E; reflexivity|]. set (t := M4 _ _ _ _).
  assert (C1 : can_take (mmul (power 1 t) mid)).
  { cbn [power]. rewrite !mmul_mid_r. split.
    - exists (M4 (V4 10000 0 0 0) (V4 0 10000 0 0) (V4 0 0 10000 0) (V4 0 0 0 1)). split; unfold t, mid; vsimp; f_equal; apply v4_eq; cbn [vx vy vz vw]; field.
    - replace (mapply t (vector 0 0 1)) with (V4 0 0 (/ 10000) 0) by (unfold t, mapply, vector, vdot; cbn; f_equal; field).
      unfold vnorm, vdot. cbn. replace (0 * 0 + 0 * 0 + / 10000 * / 10000 + 0 * 0) with (/ 10000 * / 10000) by ring. rewrite sqrt_square; lra. }
  assert (C2 : ~ can_take (mmul (power 2 t) mid)).
  { cbn [power]. rewrite !mmul_mid_r. intros [_ T]. revert T.
    replace (mapply (mmul t t) (vector 0 0 1)) with (V4 0 0 (/ 10000 * / 10000) 0) by (unfold t, mmul, mapply, vector, vdot; cbn; f_equal; field).
    unfold vnorm, vdot. cbn. replace (0 * 0 + 0 * 0 + / 10000 * / 10000 * (/ 10000 * / 10000) + 0 * 0) with ((/ 10000 * / 10000) * (/ 10000 * / 10000)) by ring. rewrite sqrt_square; lra. }
  split; [exact C1|]. split; [exact C2|].
  assert (M : motion_matrix (Scale (/ 10000) (/ 10000) (/ 10000)) = Some t) by (cbn [motion_matrix]; rewrite E; reflexivity).
  assert (NS : Forall no_set [CSurface unit_cube Absorber; CGroup [0%nat; 0%nat]]) by repeat constructor.
  pose proof (which_succeed asort _ h 1%nat o _ t R NS G1 M) as WS. pose proof (always_returns asort _ (CMotion 1%nat (Scale (/ 10000) (/ 10000) (/ 10000))) h NS R) as AR. cbn [run_call] in AR.
  destruct (apply_motion asort 1%nat (Scale (/ 10000) (/ 10000) (/ 10000)) h) as [h'|e h'|].
  - exfalso. apply C2. rewrite <- W0. apply (proj1 WS (ex_intro _ h' eq_refl) 0%nat o0 2%nat G0). unfold times. rewrite P. cbn. lia.
  - eauto.
  - congruence.
Qed.
