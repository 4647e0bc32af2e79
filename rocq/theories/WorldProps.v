(** * WorldProps: the property theorems about world objects, proved *)
From Coq Require Import Reals List Bool ZArith Lra Lia.
Import ListNotations.
From Verif Require Import XR XRFacts Arr Lin LinFacts Prim Csg Surf SpecGeom SpecTree CsgProps SurfFacts NormalFacts
  World SpecWorld WorldFacts WorldFacts2 WorldFacts3 WorldFacts4 WorldFacts5 WorldExamples BoxFacts SpecCsg CsgFacts TreeFacts.
Open Scope R_scope.

Lemma surface_shape : forall h x o p m, get h x = Some o -> o_kind o = KSurf p m ->
  shape_of h x = Some (Leaf (Surf (Z.of_nat (o_id o)) p (o_world o) (o_obj o) (o_nscale o) m) (o_box o)).
Proof. intros h x o p m G K. unfold shape_of, depth. simpl. rewrite G, K. auto. Qed.

Lemma box_history : forall asort cs h x o p m, run_prog asort cs empty_heap = Ok h -> get h x = Some o -> o_kind o = KSurf p m ->
  prim_ok p -> exists s b, shape_of h x = Some (Leaf s b) /\ s_prim s = p /\ s_world s = get_world_transform o /\
    (forall q, placed s q -> in_box b q) /\
    exists x0 x1 y0 y1 z0 z1, b = Box (Fin x0, Fin x1) (Fin y0, Fin y1) (Fin z0, Fin z1) /\
      let corners := map (to_world_coordinates o) (bounding_points p) in
      In x0 (map vx corners) /\ In x1 (map vx corners) /\ In y0 (map vy corners) /\ In y1 (map vy corners) /\
      In z0 (map vz corners) /\ In z1 (map vz corners).
Proof.
  intros asort cs h x o p m H G K P. do 2 eexists. split; [apply (surface_shape h x o p m); auto|]. split; [reflexivity|]. split; [reflexivity|].
  destruct (run_prog_good _ _ _ _ empty_good H _ _ G) as (_ & _ & B). unfold boxc in B. rewrite K in B. rewrite B. split.
  - intros q Q. exact (surf_box_contains (Surf (Z.of_nat (o_id o)) p (o_world o) (o_obj o) (o_nscale o) m) q P Q).
  - exact (surf_box_tight p (o_world o)).
Qed.
Lemma consistent_history : forall asort cs h x o, run_prog asort cs empty_heap = Ok h -> get h x = Some o -> consistent o.
Proof. intros asort cs h x o H G. apply matc_consistent. apply (run_prog_good _ _ _ _ empty_good H _ _ G). Qed.

Lemma tree_moved_once : forall asort cs h l m h' t, run_prog asort cs empty_heap = Ok h -> NoDup (parts h l) ->
  motion_matrix m = Some t -> apply_motion asort l m h = Ok h' ->
  (forall x o, get h x = Some o -> exists o', get h' x = Some o' /\ o_id o' = o_id o /\ o_kind o' = o_kind o) /\
  (forall x o o', In x (parts h l) -> get h x = Some o -> get h' x = Some o' ->
     get_world_transform o' = mmul t (get_world_transform o)) /\
  (forall x o o', ~ In x (parts h l) -> get h x = Some o -> get h' x = Some o' -> unmoved o o').
Proof.
  intros asort cs h l m h' t H ND M A. unfold apply_motion in A. rewrite M in A.
  pose proof (run_prog_good _ _ _ _ empty_good H) as Gd. split; [|split].
  - intros x o G. destruct (transform_part _ _ _ _ _ _ _ A G) as (o' & G' & E1 & E2 & _). eauto.
  - intros x o o' I G G'. destruct (transform_part _ _ _ _ _ _ _ A G) as (o1 & G1 & _ & _ & _ & W).
    rewrite G' in G1. injection G1 as <-. rewrite NoDup_times, power_1 in W; auto.
  - intros x o o' N G G'. destruct (transform_unmoved _ _ _ _ _ _ _ Gd A G N) as (o1 & G1 & U).
    rewrite G' in G1. injection G1 as <-. exact U.
Qed.
Lemma any_moved : forall asort cs h l m h' t, run_prog asort cs empty_heap = Ok h ->
  motion_matrix m = Some t -> apply_motion asort l m h = Ok h' ->
  (forall x o, get h x = Some o -> exists o', get h' x = Some o' /\
     get_world_transform o' = mmul (power (times h l x) t) (get_world_transform o)) /\
  (forall x o o', ~ In x (parts h l) -> get h x = Some o -> get h' x = Some o' -> unmoved o o') /\
  times h l l = 1%nat.
Proof.
  intros asort cs h l m h' t H M A. unfold apply_motion in A. rewrite M in A.
  pose proof (run_prog_good _ _ _ _ empty_good H) as Gd. split; [|split].
  - intros x o G. destruct (transform_part _ _ _ _ _ _ _ A G) as (o1 & G1 & _ & _ & _ & W). eauto.
  - intros x o o' N G G'. destruct (transform_unmoved _ _ _ _ _ _ _ Gd A G N) as (o1 & G1 & U).
    rewrite G' in G1. injection G1 as <-. exact U.
  - exact (transform_self_once _ _ _ _ _ _ A).
Qed.
Lemma flat_group_moved : forall asort cs h g og ms m h' t, run_prog asort cs empty_heap = Ok h ->
  get h g = Some og -> o_kind og = KGroup ms ->
  (forall x, In x ms -> exists ox, get h x = Some ox /\ children (o_kind ox) = []) ->
  motion_matrix m = Some t -> apply_motion asort g m h = Ok h' ->
  (exists og', get h' g = Some og' /\ get_world_transform og' = mmul t (get_world_transform og)) /\
  (forall x o, x <> g -> get h x = Some o -> exists o', get h' x = Some o' /\
     get_world_transform o' = mmul (power (count_occ Nat.eq_dec ms x) t) (get_world_transform o)) /\
  (forall x o o', x <> g -> ~ In x ms -> get h x = Some o -> get h' x = Some o' -> unmoved o o').
Proof.
  intros asort cs h g og ms m h' t H G K F M A. destruct (any_moved _ _ _ _ _ _ _ H M A) as (P & Q & S). split; [|split].
  - destruct (P _ _ G) as (o' & G' & W). exists o'. split; auto. rewrite S, power_1 in W. auto.
  - intros x o N Gx. destruct (P _ _ Gx) as (o' & G' & W). exists o'. split; auto. rewrite <- (flat_group_times h g og ms); auto.
  - intros x o o' N1 N2 Gx Gx'. apply (Q x); auto. intro I. apply (count_occ_In Nat.eq_dec) in I. fold (times h g x) in I.
    rewrite (flat_group_times h g og ms) in I; auto. apply (count_occ_In Nat.eq_dec) in I. auto.
Qed.

Lemma history_composes : forall asort cs h l o ms h', run_prog asort cs empty_heap = Ok h -> get h l = Some o ->
  run_prog asort (map (CMotion l) ms) h = Ok h' ->
  exists t o', composed ms = Some t /\ get h' l = Some o' /\
    get_world_transform o' = mmul t (get_world_transform o) /\
    forall v, to_world_coordinates o' v = mapply t (to_world_coordinates o v).
Proof.
  intros asort cs h l o ms h' _ G H. destruct (history_world _ _ _ _ _ _ H G) as (t & C & W).
  destruct (wld_get _ _ _ W) as (o' & G' & E). exists t, o'. split; auto. split; auto. split; auto.
  intro v. unfold to_world_coordinates. rewrite E, mapply_mmul. auto.
Qed.

Lemma pinned_restored : forall asort ls h0 h1 h2,
  (forall l, In l ls -> exists o, get h0 l = Some o) ->
  pin_exit asort ls (pin_enter h0 ls) h1 = Ok h2 ->
  ForallOrdPairs (fun a b => a = b \/ ~ In a (parts h1 b)) ls ->
  forall l o, In l ls -> get h0 l = Some o -> exists o2, get h2 l = Some o2 /\ get_world_transform o2 = get_world_transform o.
Proof.
  intros asort ls h0 h1 h2 V H F l o I G. pose proof (pin_restores _ _ _ _ _ V H F l I) as E. unfold wld in E. rewrite G in E.
  destruct (get h2 l) as [o2|]; [|discriminate]. injection E as E. eauto.
Qed.
Lemma pinned_parts_restored : forall asort ls h0 h1 h2,
  (forall l, In l ls -> exists o, get h0 l = Some o) ->
  pin_exit asort ls (pin_enter h0 ls) h1 = Ok h2 ->
  ForallOrdPairs (apart_from h1) ls ->
  forall l x o, In l ls -> In x (parts h1 l) -> times h1 l x = 1%nat -> same_place h0 h1 l x ->
  get h0 x = Some o -> exists o2, get h2 x = Some o2 /\ get_world_transform o2 = get_world_transform o.
Proof.
  intros asort ls h0 h1 h2 V H F l x o I Ix T SP G. pose proof (pin_restores_parts _ _ _ _ _ V H F l x I Ix T SP) as E. unfold wld in E.
  rewrite G in E. destruct (get h2 x) as [o2|]; [|discriminate]. injection E as E. eauto.
Qed.
(** a history inside the context that only moves whole pinned objects keeps the places *)
Definition moves_only (ls : list loc) (c : call) : Prop := match c with CMotion l _ => In l ls | _ => False end.
Lemma moves_sks : forall asort ls cs h h', Forall (moves_only ls) cs -> run_prog asort cs h = Ok h' -> sks h h'.
Proof.
  intros asort ls cs. induction cs as [|c cs IH]; intros h h' F H; [injection H as <-; apply sks_refl|].
  inversion F as [|? ? Mc Fr]; subst. destruct c; try destruct Mc. simpl in H.
  destruct (apply_motion asort l o h) as [h1|e h1|] eqn:E; try discriminate. simpl in H. eapply sks_trans; [|eapply IH; eauto].
  unfold apply_motion in E. destruct (motion_matrix o) as [t|]; [|discriminate]. apply (transform_sks asort (depth h) l t). rewrite E. auto.
Qed.
Lemma moves_keep_places : forall asort ls cs h h', Forall (moves_only ls) cs -> ForallOrdPairs (apart_from h) ls ->
  run_prog asort cs h = Ok h' -> forall l x ol ox, In l ls -> In x (parts h l) -> NoDup (parts h l) -> get h l = Some ol -> get h x = Some ox ->
  is_inverse (o_world ol) (o_obj ol) -> same_place h h' l x.
Proof.
  intros asort ls cs h h' F D H l x ol ox Il Ix ND Gl Gx Inv.
  assert (X : forall h1 h2 cs, Forall (moves_only ls) cs -> sks h h1 -> run_prog asort cs h1 = Ok h2 -> same_place h h1 l x -> same_place h h2 l x).
  2:{ apply (X h h' cs); auto using sks_refl. exists (mmul (o_obj ol) (o_world ox)), ol, ox, ol, ox.
      rewrite <- mmul_assoc, (proj2 Inv), mmul_mid_l. auto 10. }
  clear cs F H h'. intros h1 h2 cs. revert h1. induction cs as [|c cs IH]; intros h1 F S H SP; [injection H as <-; auto|].
  inversion F as [|? ? Mc Fr]; subst. destruct c as [| | | | |k o| |]; try destruct Mc. simpl in H, Mc.
  destruct (apply_motion asort k o h1) as [h3|e h3|] eqn:E; try discriminate. simpl in H.
  unfold apply_motion in E. destruct (motion_matrix o) as [t|]; [|discriminate].
  assert (S13 : sks h1 h3) by (apply (transform_sks asort (depth h1) k t); rewrite E; auto).
  apply (IH h3); auto; [eapply sks_trans; eauto|].
  destruct SP as (r & al & ax & al1 & ax1 & G1 & G2 & G3 & G4 & E1 & E2).
  destruct (transform_part _ _ _ _ _ _ _ E G3) as (bl & Gbl & _ & _ & _ & Wl).
  destruct (transform_part _ _ _ _ _ _ _ E G4) as (bx & Gbx & _ & _ & _ & Wx).
  exists r, al, ax, bl, bx. split; auto. split; auto. split; auto. split; auto. split; auto. rewrite Wx, Wl, E2.
  assert (Tm : times h1 k l = times h1 k x).
  { unfold times. rewrite (parts_sks h h1 k S). destruct (Nat.eq_dec k l) as [->|N].
    - fold (times h l l) (times h l x). rewrite !NoDup_times; auto. unfold parts, depth. simpl. auto.
    - fold (times h k l) (times h k x).
      assert (Ap : forall a b, In a ls -> In b ls -> a <> b -> apart_from h a b).
      { intros a b Ia Ib Nab. destruct (ForallOrdPairs_In D _ _ Ia Ib) as [Q|[Q|Q]]; [congruence|exact Q|]. intros z Z1 Z2. exact (Q z Z2 Z1). }
      rewrite !times_zero; auto.
      + intro J. exact (Ap k l Mc Il N x J Ix).
      + intro J. apply (Ap k l Mc Il N l J). unfold parts, depth. simpl. auto. }
  rewrite Tm, mmul_assoc. auto.
Qed.
Lemma pin_after_whole_moves : forall asort cs ls ms h0 h1 h2, run_prog asort cs empty_heap = Ok h0 ->
  (forall l, In l ls -> (exists o, get h0 l = Some o) /\ NoDup (parts h0 l)) -> ForallOrdPairs (apart_from h0) ls ->
  Forall (moves_only ls) ms -> run_prog asort ms h0 = Ok h1 ->
  pin_exit asort ls (pin_enter h0 ls) h1 = Ok h2 ->
  forall l x o, In l ls -> In x (parts h0 l) -> get h0 x = Some o ->
  exists o2, get h2 x = Some o2 /\ get_world_transform o2 = get_world_transform o.
Proof.
  intros asort cs ls ms h0 h1 h2 P V D F M E l x o Il Ix G. pose proof (moves_sks _ _ _ _ _ F M) as S.
  destruct (V l Il) as ((ol & Gl) & ND). pose proof (run_prog_good _ _ _ _ empty_good P _ _ Gl) as (_ & (Inv & _) & _).
  apply (pinned_parts_restored asort ls h0 h1 h2) with (l := l); auto.
  - intros k Ik. apply V; auto.
  - clear - D S. induction D as [|a ls Fa Fr IH]; constructor; auto. revert Fa. apply Forall_impl. intros b N y.
    rewrite (parts_sks h0 h1 a S), (parts_sks h0 h1 b S). apply N.
  - rewrite (parts_sks h0 h1 l S). auto.
  - unfold times. rewrite (parts_sks h0 h1 l S). apply NoDup_times; auto.
  - apply (moves_keep_places asort ls ms h0 h1 F D M l x ol o); auto.
Qed.

Lemma unique_ids : forall asort cs h, run_catching asort cs empty_heap = Some h ->
  forall x y ox oy, get h x = Some ox -> get h y = Some oy -> o_id ox = o_id oy -> x = y.
Proof.
  intros asort cs h H x y ox oy Gx Gy E. destruct (run_catching_ok _ _ _ _ H empty_ids_ok) as [[ND _] _].
  unfold ids in ND. unfold get in Gx, Gy.
  assert (N : forall i o, nth_error (h_objs h) i = Some o -> nth_error (map o_id (h_objs h)) i = Some (o_id o)).
  { intros i o G. apply map_nth_error. auto. }
  apply (NoDup_nth_error (map o_id (h_objs h))); auto.
  - rewrite map_length. apply nth_error_Some. congruence.
  - rewrite (N _ _ Gx), (N _ _ Gy). congruence.
Qed.
Lemma run_catching_app : forall asort cs cs' h, run_catching asort (cs ++ cs') h =
  match run_catching asort cs h with Some h1 => run_catching asort cs' h1 | None => None end.
Proof. intros asort cs. induction cs as [|c cs IH]; intros cs' h; simpl; auto. destruct (run_call asort c h); auto. Qed.
Lemma ids_kept : forall asort cs cs' h h' x o, run_catching asort cs empty_heap = Some h -> run_catching asort cs' h = Some h' ->
  get h x = Some o -> exists o', get h' x = Some o' /\ o_id o' = o_id o.
Proof.
  intros asort cs cs' h h' x o H H' G. destruct (run_catching_ok _ _ _ _ H empty_ids_ok) as [K _].
  destruct (run_catching_ok _ _ _ _ H' K) as [_ K']. exact (proj2 K' x o G).
Qed.

Lemma always_returns : forall asort cs c h, Forall no_set cs -> run_prog asort cs empty_heap = Ok h -> run_call asort c h <> Diverge.
Proof. intros. apply run_call_no_diverge. eapply run_prog_acyclic; eauto using empty_acyclic. Qed.
(** a group that is made a member of itself *)
Lemma self_group_diverges : forall asort, exists h, run_prog asort [CGroup []; CSetMembers 0%nat [0%nat]] empty_heap = Ok h /\
  run_call asort (CMotion 0%nat (Move 1 0 0)) h = Diverge.
Proof. intro asort. eexists. split; [go; reflexivity|]. unfold group_set. go. reflexivity. Qed.
Lemma rejected_leaves_unchanged : forall asort l m h, motion_matrix m = None -> apply_motion asort l m h = Raise ValueError h.
Proof. intros asort l m h M. unfold apply_motion. rewrite M. auto. Qed.

(** from the program to the solid seen by rays *)
Lemma program_to_solid : forall asort cs h l o m h', argsort_ok asort -> Forall ok_call cs -> run_prog asort cs empty_heap = Ok h ->
  get h l = Some o -> is_shape (o_kind o) -> NoDup (parts h l) -> right_simple h l ->
  ok_call (CMotion l m) -> apply_motion asort l m h = Ok h' ->
  exists s, shape_of h' l = Some s /\ forall r, boxes_fit s -> world_ray r -> good_ray s r ->
    exists L, forall t, ~ In t L ->
      (inside_at xsle (Fin t) (fst (shape_intersect asort s r)) = true <-> inside s (ray_at r t)).
Proof.
  intros asort cs h l o m h' AS F H G S ND RS C A.
  destruct (moved_tree_current _ _ _ _ _ _ _ AS H G S ND RS A) as (s & E & B). exists s. split; auto. intros r BF W GR.
  apply shape_inside; auto. apply (prog_tree_ok asort (cs ++ [CMotion l m]) h' l); auto.
  - apply Forall_app. split; auto.
  - rewrite run_prog_app, H. simpl. rewrite A. auto.
Qed.
Lemma pinned_example : forall asort, exists h h1 h2,
  run_prog asort workshop empty_heap = Ok h /\
  run_prog asort [CMotion 4%nat (Move 1 2 3); CMotion 5%nat (Move 3 0 0)] h = Ok h1 /\
  pin_exit asort [4; 5]%nat (pin_enter h [4; 5]%nat) h1 = Ok h2 /\
  ForallOrdPairs (apart_from h) [4; 5]%nat /\ parts h 4%nat = [4; 2; 0; 1; 3]%nat.
Proof.
  intro asort. do 3 eexists. split; [unfold workshop; go; reflexivity|]. split; [go; reflexivity|]. split; [go; reflexivity|].
  split; [|reflexivity]. constructor; [|constructor; [auto|constructor]]. constructor; [|auto].
  intros x I J. cbn in I, J. destruct J as [<-|[]]. intuition discriminate.
Qed.
Lemma workshop_moves : forall asort, exists h h', run_prog asort workshop empty_heap = Ok h /\
  apply_motion asort 4%nat (Move 1 2 3) h = Ok h' /\ apply_motion asort 6%nat (Move 1 2 3) h <> Diverge /\
  apply_motion asort 3%nat (Move 1 0 0) h <> Diverge.
Proof.
  intro asort. do 2 eexists. split; [unfold workshop; go; reflexivity|]. split; [go; reflexivity|].
  split; go; discriminate.
Qed.
Lemma group_example : forall asort, exists h h',
  run_prog asort [CPlain; CSurface (PSphere 1) Mirror; CGroup [0; 1; 0]%nat] empty_heap = Ok h /\
  apply_motion asort 2%nat (Move 1 0 0) h = Ok h'.
Proof. intro asort. do 2 eexists. split; [go; reflexivity|]. go. reflexivity. Qed.
Lemma operand_example : forall asort, exists h h',
  run_prog asort workshop empty_heap = Ok h /\ NoDup (parts h 2%nat) /\
  apply_motion asort 0%nat (Move 1 0 0) h = Ok h'.
Proof.
  intro asort. do 2 eexists. split; [unfold workshop; go; reflexivity|].
  split; [cbn; repeat constructor; cbn; intuition discriminate|]. go. reflexivity.
Qed.
