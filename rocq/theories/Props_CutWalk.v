(** * C130, continued: composites whose movement is interrupted anywhere between two objects *)
From Coq Require Import Reals List Bool Arith Lia Lra.
Import ListNotations.
From Verif Require Import XR XRFacts Arr Lin LinFacts Prim Csg Surf World SpecWorld WorldFacts WorldFacts2 WorldFacts3 WorldFacts4
  WorldFacts5 WorldExamples WorldProps PinExact CutWalk.
Open Scope R_scope.

Lemma each_app f a : forall b h, each f (a ++ b) h = bind (each f a h) (each f b).
Proof.
  induction a as [|x a IH]; intros b h; cbn [each app bind]; [reflexivity|].
  destruct (f x h); cbn [bind]; [apply IH|reflexivity|reflexivity].
Qed.
Lemma bind_bind r f g : bind (bind r f) g = bind r (fun h => bind (f h) g).
Proof. destruct r; reflexivity. Qed.
Lemma append_sks asort p t h h' : append_own asort p t h = Ok h' -> sks h h'.
Proof. intro H. apply (append_own_sks asort p t). rewrite H. reflexivity. Qed.
Lemma each_sks asort t ps : forall h h', move_each asort t ps h = Ok h' -> sks h h'.
Proof.
  unfold move_each. induction ps as [|p ps IH]; intros h h' H; cbn [each] in H.
  - injection H as <-. apply sks_refl.
  - destruct (append_own asort p t h) as [h1|e h1|] eqn:E; cbn [bind] in H; try discriminate.
    eapply sks_trans; [apply (append_sks _ _ _ _ _ E)|apply IH; exact H].
Qed.
Lemma transform_walk asort t : forall n l h, enough n h l ->
  transform asort n l t h = move_each asort t (parts_upto n h l) h.
Proof.
  unfold move_each. induction n as [|n IH]; intros l h E; [destruct E|].
  cbn [transform parts_upto each]. destruct (get h l) as [o|] eqn:G.
  2: { unfold append_own. rewrite G. reflexivity. }
  destruct (append_own asort l t h) as [h1|e h1|] eqn:A; cbn [bind]; try reflexivity.
  assert (S : sks h h1) by (apply (append_sks _ _ _ _ _ A)).
  assert (F : forall c, In c (children (o_kind o)) -> enough n h c) by (intros; eauto).
  clear A. revert h1 S F. induction (children (o_kind o)) as [|c cs IHc]; intros h1 S F; [reflexivity|].
  cbn [each flat_map]. rewrite each_app. rewrite <- (parts_upto_sks n h h1 c S).
  rewrite <- IH by (apply (enough_sks n h h1 c S); apply F; left; reflexivity).
  destruct (transform asort n c t h1) as [h2|e h2|] eqn:T; cbn [bind]; try reflexivity.
  rewrite IHc; [reflexivity| |intros; apply F; right; assumption].
  eapply sks_trans; [exact S|]. rewrite IH in T by (apply (enough_sks n h h1 c S); apply F; left; reflexivity).
  apply (each_sks asort t _ _ _ T).
Qed.
Lemma walk_world asort t ps : forall h h', NoDup ps -> move_each asort t ps h = Ok h' ->
  forall x o, get h x = Some o -> exists o', get h' x = Some o' /\
    (In x ps -> o_world o' = mmul t (o_world o)) /\ (~ In x ps -> o_world o' = o_world o).
Proof.
  unfold move_each. induction ps as [|p ps IH]; intros h h' N H x o G; cbn [each] in H.
  - injection H as <-. exists o. split; [exact G|]. split; [intros []|reflexivity].
  - inversion N as [|? ? N1 N2]; subst.
    destruct (append_own asort p t h) as [h1|e h1|] eqn:E; cbn [bind] in H; try discriminate.
    destruct (append_own_world _ _ _ _ _ E) as (_ & _ & AW). destruct (AW _ _ G) as (o1 & G1 & _ & W1).
    destruct (IH h1 h' N2 H x o1 G1) as (o' & G' & I1 & I2). exists o'. split; [exact G'|].
    destruct (Nat.eqb_spec x p) as [->|D]; rewrite ?Nat.eqb_refl in W1.
    + split; [intros _; rewrite (I2 N1), W1; reflexivity|]. intro X. exfalso. apply X. left. reflexivity.
    + split; intro X.
      * destruct X as [X|X]; [exfalso; congruence|]. rewrite (I1 X), W1. reflexivity.
      * rewrite I2; [exact W1|]. intro Y. apply X. right. exact Y.
Qed.
Lemma firstn_incl {A : Type} n (l : list A) x : In x (firstn n l) -> In x l.
Proof. rewrite <- (firstn_skipn n l) at 2. intro. apply in_or_app. left. assumption. Qed.
Lemma firstn_nodup {A : Type} n (l : list A) : NoDup l -> NoDup (firstn n l).
Proof.
  intro H. revert n. induction H as [|a l N H IH]; intros [|n]; cbn [firstn]; constructor; auto.
  intro X. apply N. apply (firstn_incl n). exact X.
Qed.

(** A movement that is not interrupted is the whole walk. *)
Theorem C130_same_walk : forall asort cs h l o m t,
  run_prog asort cs empty_heap = Ok h -> Forall no_set cs -> get h l = Some o -> motion_matrix m = Some t ->
  apply_motion asort l m h = cut_transform asort (length (parts h l)) l t h.
Proof.
  intros asort cs h l o m t R F G M. unfold apply_motion. rewrite M. unfold cut_transform. rewrite firstn_all.
  apply transform_walk. apply acyclic_enough; [apply (run_prog_acyclic asort cs empty_heap h F empty_acyclic R)|].
  unfold depth. apply Nat.lt_lt_succ_r. apply nth_error_Some. unfold get in G. rewrite G. discriminate.
Qed.
Print Assumptions C130_same_walk.

(** A pinned composite each of whose parts occurs once is moved by [t] and interrupted when
    [n] of the objects of the walk have moved, the composite itself among them.  After the
    context those [n] are where they were; each of the others has been moved by the inverse
    of [t]. *)
Theorem C130_cut_composites_exactly : forall asort n l h0 o0 w t i h1 h2,
  get h0 l = Some o0 -> is_inverse (get_world_transform o0) w -> is_inverse t i ->
  NoDup (parts h0 l) -> (1 <= n)%nat ->
  cut_transform asort n l t h0 = Ok h1 ->
  pin_exit asort [l] (pin_enter h0 [l]) h1 = Ok h2 ->
  forall x ox, In x (parts h0 l) -> get h0 x = Some ox ->
  exists ox2, get h2 x = Some ox2 /\
    (In x (firstn n (parts h0 l)) -> get_world_transform ox2 = get_world_transform ox) /\
    (~ In x (firstn n (parts h0 l)) -> get_world_transform ox2 = mmul i (get_world_transform ox)).
Proof.
  intros asort n l h0 o0 w t i h1 h2 G HW HT ND Hn A P x ox Ix Gx.
  pose proof (each_sks _ _ _ _ _ A) as S.
  pose proof (walk_world asort t _ h0 h1 (firstn_nodup n _ ND) A) as WW.
  assert (Il : In l (firstn n (parts h0 l))).
  { unfold parts, depth. destruct n as [|n]; [lia|]. cbn [parts_upto firstn]. left. reflexivity. }
  destruct (WW l o0 G) as (o1 & G1 & W1 & _). specialize (W1 Il).
  destruct (pin_one asort l h0 h1 h2 o0 o1 G G1 P) as (c & C & M & _).
  unfold get_world_transform in *. rewrite W1 in C.
  assert (E : c = i).
  { destruct HW as [_ HW], HT as [_ HT].
    assert (X : mmul c t = mid).
    { rewrite <- (mmul_mid_r (mmul c t)), <- HW, <- mmul_assoc, (mmul_assoc c t), C. reflexivity. }
    rewrite <- (mmul_mid_r c), <- HT, <- mmul_assoc, X. apply mmul_mid_l. }
  subst c. destruct (WW x ox Gx) as (ox1 & Gx1 & In1 & Out1).
  destruct (M x ox1 Gx1) as (ox2 & Gx2 & E2). exists ox2. split; [exact Gx2|].
  assert (T : times h1 l x = 1%nat).
  { unfold times. rewrite (parts_sks h0 h1 l S). apply (NoDup_times h0 l x ND Ix). }
  rewrite T in E2. cbn [power] in E2. rewrite mmul_mid_r in E2. rewrite E2. split; intro X.
  - rewrite (In1 X), <- mmul_assoc. destruct HT as [HT _]. rewrite HT. apply mmul_mid_l.
  - rewrite (Out1 X). reflexivity.
Qed.
Print Assumptions C130_cut_composites_exactly.

(** A union of two cubes, interrupted when it and its first cube have moved to x = 1: after
    the context these two are back at 0 and the second cube is at x = -1. *)
Example C130_half_a_union : forall asort, exists h h1 h2 o0 o1 o2,
  run_prog asort [CSurface unit_cube Absorber; CSurface unit_cube Absorber; CCsg UNION 0%nat 1%nat] empty_heap = Ok h /\
  parts h 2%nat = [2; 0; 1]%nat /\
  cut_transform asort 2 2%nat (shift 1 0 0) h = Ok h1 /\
  pin_exit asort [2]%nat (pin_enter h [2]%nat) h1 = Ok h2 /\
  get h2 0%nat = Some o0 /\ get_position o0 = point 0 0 0 /\
  get h2 1%nat = Some o1 /\ get_position o1 = point (-1) 0 0 /\
  get h2 2%nat = Some o2 /\ get_position o2 = point 0 0 0.
Proof.
  intro asort. do 6 eexists. split; [go; reflexivity|]. split; [reflexivity|].
  split; [unfold cut_transform, move_each; change (firstn 2 (parts _ 2%nat)) with [2; 0]%nat; cbn [each]; go; reflexivity|]. split.
  - go. reflexivity.
  - split; [reflexivity|]. split; [cbn; f_equal; ring|]. split; [reflexivity|]. split; [cbn; f_equal; ring|].
    split; [reflexivity|]. cbn. f_equal; ring.
Qed.
