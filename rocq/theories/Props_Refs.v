(** * C113: arrays handed out by the getters, and arrays given to [transform] *)
From Coq Require Import Reals List Bool ZArith Lra Lia.
Import ListNotations.
From Verif Require Import XR Arr Lin LinFacts Prim Csg Surf World WorldFacts WorldExamples Refs SpecRefs RefsFacts RefsProps.
Open Scope R_scope.

(** Every program, whatever it writes into the arrays it holds: its calls raise what they would raise, and it ends
    with the objects and the matrices it would end with, if every getter returned a value of its own and
    [transform] got a value.  Only positions and orientations are left out. *)
Theorem C113_transforms_are_never_shared : forall asort cs,
  match rrun asort cs rstart, crun asort cs cstart with
  | None, None => True
  | Some (s, es), Some (c, es') => es = es' /\ objects_agree s c /\ matrices_agree s c
  | _, _ => False
  end.
Proof.
  intros asort cs. pose proof (run_inv asort false cs _ _ (start_inv false) (fun T => False_ind _ (Bool.diff_false_true T))) as A.
  destruct (rrun asort cs rstart) as [[s es]|], (crun asort cs cstart) as [[c es']|]; auto.
  destruct A as [-> A]. split; [reflexivity|]. split; [eapply inv_objects|eapply inv_matrices]; exact A.
Qed.
Print Assumptions C113_transforms_are_never_shared.

(** A program that never writes into an array that [get_position] or [get_orientation] returned cannot tell
    the getters from getters that return values. *)
Theorem C113_nothing_is_shared_partial : forall asort cs, leaves_places_alone cs ->
  match rrun asort cs rstart, crun asort cs cstart with
  | None, None => True
  | Some (s, es), Some (c, es') => es = es' /\ objects_agree s c /\ places_agree s c /\ arrays_agree s c
  | _, _ => False
  end.
Proof.
  intros asort cs L. pose proof (run_inv asort true cs _ _ (start_inv true) (fun _ k f g I => L k f g I)) as A.
  destruct (rrun asort cs rstart) as [[s es]|], (crun asort cs cstart) as [[c es']|]; auto.
  destruct A as [-> A]. split; [reflexivity|]. split; [eapply inv_objects; exact A|]. split; [apply inv_places; exact A|apply inv_arrays; exact A].
Qed.
Print Assumptions C113_nothing_is_shared_partial.

(** The full property, [C113_nothing_is_shared_partial] for every program, is false: writing into what
    [get_position] returned moves the position the object reports, and not the object. *)
Theorem C113_positions_are_shared_refuted : forall asort, exists s c es,
  rrun asort [Does CPlain; GetPosition 0%nat; Write 0%nat (fun m => m) (fun v => V4 7 (vy v) (vz v) (vw v))] rstart = Some (s, es) /\
  crun asort [Does CPlain; GetPosition 0%nat; Write 0%nat (fun m => m) (fun v => V4 7 (vy v) (vz v) (vw v))] cstart = Some (c, es) /\
  position_now s 0%nat = Some (point 7 0 0) /\ option_map get_position (get (cs_heap c) 0%nat) = Some (point 0 0 0) /\
  world_now s 0%nat = Some mid /\ ~ places_agree s c.
Proof.
  intro asort. do 3 eexists. split; [reflexivity|]. split; [reflexivity|]. split; [reflexivity|]. split; [reflexivity|]. split; [reflexivity|].
  intro P. destruct (P 0%nat) as [Q _]. cbn in Q. injection Q as Q. lra.
Qed.
Print Assumptions C113_positions_are_shared_refuted.

(** The next movement of the object puts both right, whatever was written before. *)
Theorem C113_a_movement_restores_the_place : forall asort cs s es l x s',
  rrun asort cs rstart = Some (s, es) -> (exists o, x = Does (CMotion l o)) \/ (exists k, x = TransformBy l k) ->
  rstep asort x s = Some (s', None) ->
  exists m, world_now s' l = Some m /\ position_now s' l = Some (mapply m (point 0 0 0)) /\
    orientation_now s' l = Some (vscale (/ vnorm (mapply m (vector 0 0 1))) (mapply m (vector 0 0 1))).
Proof.
  intros asort cs s es l x s' E X T. destruct (reached_inv asort cs s es E) as (c & H & W).
  assert (R : right_here (rs_heap s') l) by (destruct X as [(o & ->)|(k & ->)]; [eapply motion_right|eapply transform_by_right]; eauto).
  destruct R as (o & m & G & A & B & C). exists m. unfold world_now, position_now, orientation_now. rewrite G. auto.
Qed.
Print Assumptions C113_a_movement_restores_the_place.

(** What a caller gets from [get_world_transform] and [get_object_transform] stays what it is while others move
    the object: only the caller's own writes change it. *)
Theorem C113_what_is_held_stays : forall asort cs s es x s' e k m,
  rrun asort cs rstart = Some (s, es) -> rstep asort x s = Some (s', e) -> (forall f g, x <> Write k f g) ->
  holds s k = Some (AMat m) -> holds s' k = Some (AMat m).
Proof.
  intros asort cs s es x s' e k m E T N H. destruct (reached_inv asort cs s es E) as (c & I & _).
  pose proof (step_inv asort false x s c I (fun T => False_ind _ (Bool.diff_false_true T))) as A. rewrite T in A.
  destruct (cstep asort x c) as [[c' e']|] eqn:C; [|contradiction]. destruct A as (_ & I' & _).
  apply (proj2 (inv_matrices _ _ _ I) k m) in H. apply (proj2 (inv_matrices _ _ _ I') k m).
  assert (L : (k < length (cs_held c))%nat) by (apply nth_error_Some; congruence).
  assert (AP : forall y, nth_error (cs_held c ++ [y]) k = Some (AMat m)) by (intro y; rewrite nth_error_app1; assumption).
  destruct x as [d|l|l|l|l|m'|k' f g|l k']; cbn [cstep] in C.
  - destruct (run_call asort d (cs_heap c)); try discriminate; injection C as <- _; exact H.
  - destruct (get (cs_heap c) l); [|discriminate]. injection C as <- _. apply AP.
  - destruct (get (cs_heap c) l); [|discriminate]. injection C as <- _. apply AP.
  - destruct (get (cs_heap c) l); [|discriminate]. injection C as <- _. apply AP.
  - destruct (get (cs_heap c) l); [|discriminate]. injection C as <- _. apply AP.
  - injection C as <- _. apply AP.
  - destruct (nth_error (cs_held c) k'); [|discriminate]. injection C as <- _. cbn [cs_held]. rewrite nth_upd.
    destruct (Nat.eqb_spec k' k) as [->|_]; [destruct (N f g eq_refl)|exact H].
  - destruct (nth_error (cs_held c) k') as [[m'|v]|]; try discriminate. destruct (run_call asort (CMotion l (Transform m')) (cs_heap c)); try discriminate; injection C as <- _; exact H.
Qed.
Print Assumptions C113_what_is_held_stays.

(** A cube is moved by a matrix that is then overwritten; its transform is read, overwritten, and read again. *)
Definition overwriting : list astmt :=
  [Does (CSurface unit_cube Mirror); NewMatrix (shift 1 2 3); TransformBy 0%nat 0%nat; Write 0%nat (fun _ => shift 9 9 9) (fun v => v);
   GetWorld 0%nat; Write 1%nat (fun _ => shift 5 5 5) (fun v => v); GetWorld 0%nat; GetPosition 0%nat].
Example C113_overwriting : forall asort, leaves_places_alone overwriting /\ exists s, rrun asort overwriting rstart = Some (s, repeat None 8) /\
  holds s 0%nat = Some (AMat (shift 9 9 9)) /\ holds s 1%nat = Some (AMat (shift 5 5 5)) /\ holds s 2%nat = Some (AMat (shift 1 2 3)) /\
  holds s 3%nat = Some (AVec (point 1 2 3)) /\ world_now s 0%nat = Some (shift 1 2 3).
Proof.
  intro asort. assert (L : leaves_places_alone overwriting).
  { intros k f g I. cbn in I. repeat (destruct I as [I|I]; [try discriminate; injection I; intros; subst; reflexivity|]). contradiction. }
  split; [exact L|]. pose proof (C113_nothing_is_shared_partial asort overwriting L) as A.
  assert (C : exists c, crun asort overwriting cstart = Some (c, repeat None 8) /\
    cs_held c = [AMat (shift 9 9 9); AMat (shift 5 5 5); AMat (shift 1 2 3); AVec (point 1 2 3)] /\ option_map get_world_transform (get (cs_heap c) 0%nat) = Some (shift 1 2 3)).
  { assert (R : exists h1 h2 o, run_call asort (CSurface unit_cube Mirror) empty_heap = Ok h1 /\ run_call asort (CMotion 0%nat (Transform (shift 1 2 3))) h1 = Ok h2 /\
      get h2 0%nat = Some o /\ o_world o = shift 1 2 3 /\ o_origin o = point 1 2 3).
    { do 3 eexists. split; [go; reflexivity|]. split; [cbn [run_call]; unfold apply_motion; cbn [motion_matrix]; go; reflexivity|]. split; [reflexivity|]. split; reflexivity. }
    destruct R as (h1 & h2 & o & R1 & R2 & G & W & P). unfold overwriting. cbn [crun cstep cstart cs_heap cs_held]. rewrite R1.
    cbn [cs_heap cs_held app nth_error]. rewrite R2. cbn [cs_heap cs_held app nth_error list_upd change]. rewrite G. cbn [cs_heap cs_held app nth_error list_upd change]. rewrite G.
    cbn [cs_heap cs_held app nth_error list_upd change]. rewrite G. eexists. split; [reflexivity|]. cbn [cs_heap cs_held]. rewrite G. unfold get_world_transform, get_position. cbn [option_map].
    rewrite W, P. split; reflexivity. }
  destruct C as (c & C & H & W). rewrite C in A. destruct (rrun asort overwriting rstart) as [[s es]|]; [|contradiction]. destruct A as (-> & O & P & Q).
  exists s. split; [reflexivity|]. rewrite !Q, H. repeat (split; [reflexivity|]). rewrite <- W. apply O.
Qed.
