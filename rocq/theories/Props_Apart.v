(** * Props_Apart: objects that were never put together leave one another alone *)
From Coq Require Import Reals List Bool ZArith Lra Lia.
Import ListNotations.
From Verif Require Import XR Arr Lin Prim Csg Surf World SpecWorld WorldFacts WorldFacts3 WorldFacts4 WorldExamples LinFacts ComponentFacts BuildFacts Components SpecComponents SymmetryExamples SpecApart FrameProps Props_World.
Open Scope R_scope.

(** C108.  [mine] is any set of objects, and no call of the program so far brought one of them together with
    one outside it.  Then a further call that is given and makes none of them leaves every one of them as it
    is, position, orientation, box, normals and all, whether the call returns or raises. *)
Theorem C108_strangers_do_not_interfere : forall asort mine cs h c h', never_together asort mine empty_heap cs h ->
  left_by (run_call asort c h) h' -> (forall l, concerns h c h' l -> ~ mine l) ->
  forall l, mine l -> get h' l = get h l.
Proof. exact strangers. Qed.
Print Assumptions C108_strangers_do_not_interfere.

(** So does every solid among them look the same to rays. *)
Theorem C108_solids_of_strangers_look_the_same : forall asort mine cs h c h', run_prog asort cs empty_heap = Ok h -> never_together asort mine empty_heap cs h ->
  left_by (run_call asort c h) h' -> (forall l, concerns h c h' l -> ~ mine l) ->
  forall l, mine l -> (l < length (h_objs h))%nat -> shape_of h' l = shape_of h l.
Proof. exact strangers_shape. Qed.
Print Assumptions C108_solids_of_strangers_look_the_same.

(** In particular a program that names only objects it makes itself changes no object that was there before
    it, in any state, whether its calls raise or not. *)
Theorem C108_new_objects_leave_old_ones_alone : forall asort cs h h', (forall c l, In c cs -> In l (names c) -> (length (h_objs h) <= l)%nat) ->
  run_catching asort cs h = Some h' -> forall l, (l < length (h_objs h))%nat -> get h' l = get h l.
Proof. exact later_calls. Qed.
Print Assumptions C108_new_objects_leave_old_ones_alone.

(** A ball with a bite, as one program makes it *)
Definition bitten : list call := [CSurface (PSphere 1) Mirror; CSurface (PSphere 1) Mirror; CMotion 1 (Move 1 0 0); CCsg DIFFERENCE 0 1].
(** Two of them on one bench: no call brings objects 0 to 2 together with objects 3 to 5.  Moving the second
    solid moves it and leaves the first one alone; moving the first leaves the second one alone. *)
Example C108_two_solids : forall asort, exists h, run_prog asort (bitten ++ map (shift 3) bitten) empty_heap = Ok h /\
  never_together asort (fun l => (l < 3)%nat) empty_heap (bitten ++ map (shift 3) bitten) h /\
  never_together asort (fun l => (3 <= l)%nat) empty_heap (bitten ++ map (shift 3) bitten) h /\
  (exists h' o o', run_call asort (CMotion 5 (Move 0 0 7)) h = Ok h' /\ (forall l, concerns h (CMotion 5 (Move 0 0 7)) h' l -> ~ (l < 3)%nat) /\
     get h' 2%nat = get h 2%nat /\ get h 5%nat = Some o /\ get h' 5%nat = Some o' /\ get_world_transform o' = mmul (mmove 0 0 7) (get_world_transform o)) /\
  (exists h', run_call asort (CMotion 2 (Move 0 0 7)) h = Ok h' /\ (forall l, concerns h (CMotion 2 (Move 0 0 7)) h' l -> ~ (3 <= l)%nat) /\ get h' 5%nat = get h 5%nat).
Proof.
  intros asort. 
  destruct (track_sound asort bitten empty_heap 0 [] _ (nice_empty asort) (tracked_start empty_heap) eq_refl) as (h0 & R0 & N0 & T0).
  change (map (shift 0) bitten) with bitten in R0. pose proof (proj1 T0 : length (h_objs h0) = 3%nat) as L0.
  destruct (track_sound asort (map (shift 3) bitten) h0 0 _ _ N0 T0 eq_refl) as (h & R & N & T).
  rewrite map_map in R. change (map (fun x => shift 0 (shift 3 x)) bitten) with (map (shift 3) bitten) in R. pose proof (proj1 T : length (h_objs h) = 6%nat) as L.
  assert (RA : run_prog asort (bitten ++ map (shift 3) bitten) empty_heap = Ok h) by (rewrite run_prog_app, R0; exact R).
  assert (NT : never_together asort (fun l => (l < 3)%nat) empty_heap (bitten ++ map (shift 3) bitten) h).
  { apply never_app with (h1 := h0).
    - apply bench_one; [exact R0|lia|]. intros c l I J. cbn in I. repeat (destruct I as [<-|I]; [cbn in J; intuition lia|]). destruct I.
    - apply bench_two; [exact R|lia|]. intros c l I J. apply in_map_iff in I. destruct I as (c' & <- & _). eapply shift_names; exact J. }
  assert (NT' : never_together asort (fun l => (3 <= l)%nat) empty_heap (bitten ++ map (shift 3) bitten) h) by (apply (never_swap asort (fun l => (l < 3)%nat)); [intro l; cbv beta; lia|intro l; cbv beta; lia|exact NT]).
  exists h. do 3 (split; [assumption|]). split.
  - destruct (track_sound asort [CMotion 5 (Move 0 0 7)] h 0 _ _ N T eq_refl) as (h' & R' & _ & T'). pose proof (proj1 T' : length (h_objs h') = 6%nat) as L'.
    cbn [map shift run_prog Nat.add] in R'. assert (C : run_call asort (CMotion 5 (Move 0 0 7)) h = Ok h') by (destruct (run_call asort (CMotion 5 (Move 0 0 7)) h); cbn [bind] in R'; congruence).
    assert (NC : forall l, concerns h (CMotion 5 (Move 0 0 7)) h' l -> ~ (l < 3)%nat) by (intros l [[<-|[]]|I]; lia).
    destruct (get_some h 5%nat) as (o & G); [lia|].
    destruct (C24_transform_reaches_every_part_once_per_listing asort _ h 5%nat (Move 0 0 7) h' (mmove 0 0 7) RA eq_refl C) as (ALL & _ & ONE).
    destruct (ALL _ o G) as (o' & G' & W). rewrite ONE in W. cbn [SpecWorld.power] in W. rewrite mmul_mid_r in W. exists h', o, o'. do 2 (split; [assumption|]). split; [|repeat split; assumption].
    eapply C108_strangers_do_not_interfere; [exact NT|left; exact C|exact NC|cbv beta; lia].
  - destruct (track_sound asort [CMotion 2 (Move 0 0 7)] h 0 _ _ N T eq_refl) as (h' & R' & _ & T'). pose proof (proj1 T' : length (h_objs h') = 6%nat) as L'.
    cbn [map shift run_prog Nat.add] in R'. assert (C : run_call asort (CMotion 2 (Move 0 0 7)) h = Ok h') by (destruct (run_call asort (CMotion 2 (Move 0 0 7)) h); cbn [bind] in R'; congruence).
    assert (NC : forall l, concerns h (CMotion 2 (Move 0 0 7)) h' l -> ~ (3 <= l)%nat) by (intros l [[<-|[]]|I]; lia).
    exists h'. do 2 (split; [assumption|]). eapply C108_strangers_do_not_interfere; [exact NT'|left; exact C|exact NC|cbv beta; lia].
Qed.
(** It does matter that the objects were never put together: when the solid is moved that an object became part
    of, the object moves too, although the call is not given it. *)
Example C108_parts_are_no_strangers : forall asort, exists h h', run_prog asort [CSurface unit_cube Absorber; CCsg UNION 0%nat 0%nat] empty_heap = Ok h /\
  run_call asort (CMotion 1 (Move 1 0 0)) h = Ok h' /\ ~ In 0%nat (names (CMotion 1 (Move 1 0 0))) /\ get h' 0%nat <> get h 0%nat.
Proof.
  intro asort. destruct (C25_shared_operand_refuted asort) as (h & h' & o & o' & R & M & G & G' & P & P'). exists h, h'. do 2 (split; [assumption|]).
  split; [intros [E|[]]; discriminate|]. rewrite G, G'. intro E. injection E as ->. rewrite P in P'. injection P'. lra.
Qed.
