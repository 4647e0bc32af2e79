(** * MoveFails: which movements fail, and what a failed one leaves behind *)
From Coq Require Import Reals Lra Lia List Bool Arith.
Import ListNotations.
From Verif Require Import XR XRFacts Arr Lin LinFacts Prim Csg Surf World SpecWorld WorldFacts WorldFacts2 WorldFacts3 WorldFacts5 SpecMove.
Open Scope R_scope.

Definition ok_mat (w : mat) : Prop := dir_tolerance <= vnorm (mapply w obj_direction) /\ mdet w <> 0.
Definition all_ok (h : heap) : Prop := forall x o, get h x = Some o -> ok_mat (o_world o).
Lemma good_ok : forall h, all_good h -> all_ok h.
Proof. intros h G x o H. destruct (G x o H) as (_ & (I & _ & T & _) & _). split; auto. eapply is_inverse_det; eauto. Qed.
Lemma run_handler_ok : forall asort w h, all_ok h -> handler_fits h w -> exists h', run_handler asort w h = Ok h'.
Proof.
  intros asort [x|x|x] h F H; simpl in *.
  - destruct H as (o & G). rewrite G. destruct (F x o G) as (T & D). apply rltb_false in T. rewrite T.
    destruct (minv (o_world o)) eqn:M; eauto. apply minv_none in M. contradiction.
  - destruct H as (o & p & m & G & K). rewrite G, K. eauto.
  - destruct H as (o & op & a & b & oa & ob & G & K & Ga & Sa & Gb & Sb). rewrite G, K.
    unfold box_of. rewrite Ga, Gb. destruct (o_kind oa); try destruct Sa; destruct (o_kind ob); try destruct Sb; eauto.
Qed.
Lemma run_all_ok : forall asort ws h, all_ok h -> (forall w, In w ws -> handler_fits h w) -> exists h', run_all asort ws h = Ok h'.
Proof.
  intros asort ws. induction ws as [|w ws IH]; intros h F H; [simpl; eauto|].
  destruct (run_handler_ok asort w h F (H w (or_introl eq_refl))) as (h1 & E). simpl. rewrite E. simpl.
  assert (S : wsk h h1) by (apply (run_handler_wsk asort w); rewrite E; auto).
  apply IH.
  - intros x o' G'. destruct (hrel_get_back _ _ _ _ _ S G') as (o & G & [_ W]). rewrite W. eauto.
  - intros w' I. eapply handler_fits_sks; [apply wsk_sks, S|]. apply H; right; auto.
Qed.
Lemma watch_head : forall h x o, wf h -> get h x = Some o -> exists rest, o_watch o = HMat x :: rest.
Proof.
  intros h x o W G. pose proof (W x o G) as X. unfold wfx in X. destruct (o_kind o).
  - eauto.
  - destruct X as (rest & E & _). eauto.
  - destruct X as ((rest & E & _) & _). eauto.
  - eauto.
Qed.

(** What is left of an object whose new transform was refused. *)
Definition half_moved (e : exn) (t : mat) (o o' : obj) : Prop :=
  skel o o' /\ o_box o' = o_box o /\ o_world o' = mmul t (o_world o) /\ o_obj o' = o_obj o /\
  o_origin o' = mapply (o_world o') obj_origin /\
  (e = ValueError /\ o_dir o' = o_dir o /\ vnorm (mapply (o_world o') obj_direction) < dir_tolerance \/
   e = LinAlgError /\ o_dir o' = vscale (/ vnorm (mapply (o_world o') obj_direction)) (mapply (o_world o') obj_direction) /\
     dir_tolerance <= vnorm (mapply (o_world o') obj_direction) /\ mdet (o_world o') = 0).
Lemma append_split : forall asort l t h o, wf h -> all_good h -> get h l = Some o ->
  (ok_mat (mmul t (o_world o)) /\ exists h', append_own asort l t h = Ok h') \/
  (~ ok_mat (mmul t (o_world o)) /\ exists e h' o', append_own asort l t h = Raise e h' /\
     get h' l = Some o' /\ half_moved e t o o' /\ (forall x, x <> l -> get h' x = get h x) /\ h_next h' = h_next h /\ length (h_objs h') = length (h_objs h)).
Proof.
  intros asort l t h o W A G. unfold append_own. rewrite G. set (w := mmul t (o_world o)). set (h0 := upd h l (with_world w)).
  assert (G0 : get h0 l = Some (with_world w o)) by (apply get_upd_same; auto).
  assert (S0 : sks h h0) by (apply hrel_upd; intros; [apply skel_refl|repeat split]).
  destruct (watch_head h l o W G) as (rest & WE).
  destruct (Rlt_dec (vnorm (mapply w obj_direction)) dir_tolerance) as [LT|GE].
  - right. split; [intros [X _]; lra|]. rewrite WE. simpl. rewrite G0. cbn [o_world with_world]. pose proof LT as LT'. apply rltb_true in LT'. rewrite LT'. simpl.
    eexists _, _, _. split; [reflexivity|]. split; [apply get_upd_same; exact G0|]. split.
    + unfold half_moved, skel. cbn. repeat split; auto.
    + split; [intros x N; unfold h0; rewrite !get_upd_other by auto; reflexivity|]. unfold h0. rewrite !next_upd, !len_upd. auto.
  - assert (GE' : dir_tolerance <= vnorm (mapply w obj_direction)) by lra.
    destruct (Req_dec (mdet w) 0) as [Z|NZ].
    + right. split; [intros [_ X]; auto|]. rewrite WE. simpl. rewrite G0. cbn [o_world with_world].
      pose proof GE' as GE''. apply rltb_false in GE''. rewrite GE''.
      destruct (minv w) as [i|] eqn:M.
      { exfalso. apply minv_some in M. apply is_inverse_det in M. auto. }
      simpl. eexists _, _, _. split; [reflexivity|]. split; [apply get_upd_same, get_upd_same; exact G0|]. split.
      * unfold half_moved, skel. cbn. repeat split; auto.
      * split; [intros x N; unfold h0; rewrite !get_upd_other by auto; reflexivity|]. unfold h0. rewrite !next_upd, !len_upd. auto.
    + left. split; [split; auto|]. apply run_all_ok.
      * intros x o' G'. unfold h0 in G'. rewrite get_upd in G'. destruct (Nat.eqb_spec x l) as [->|N]; [|eapply good_ok; eauto].
        rewrite G in G'. injection G' as <-. split; auto.
      * intros w' Iw. eapply handler_fits_sks; [exact S0|]. eapply wf_handler_fits; eauto.
Qed.

Definition covers (t : mat) (f : loc -> nat) (h h' : heap) : Prop :=
  hrel (wpow t f) h h' /\ forall x o j, get h x = Some o -> (1 <= j <= f x)%nat -> ok_mat (mmul (power j t) (o_world o)).
Lemma covers_none : forall t h, covers t (fun _ => 0%nat) h h.
Proof. intros t h. split; [apply hrel_refl; intros x o _; split; [apply skel_refl|simpl; rewrite mmul_mid_l; auto]|intros; lia]. Qed.
Lemma covers_seq : forall t f g h1 h2 h3, covers t f h1 h2 -> covers t g h2 h3 -> covers t (fun x => (g x + f x)%nat) h1 h3.
Proof.
  intros t f g h1 h2 h3 [A B] [C D]. split; [eapply hrel_trans; [intros x a b c; apply wpow_trans|exact A|exact C]|].
  intros x o j G J. destruct (le_lt_dec j (f x)) as [L|L]; [eapply B; eauto; lia|].
  destruct (proj2 (proj2 A) _ _ G) as (o2 & G2 & _ & W). specialize (D x o2 (j - f x)%nat G2 ltac:(lia)). rewrite W, power_plus in D.
  replace (j - f x + f x)%nat with j in D by lia. exact D.
Qed.
Lemma covers_ext : forall t f g h h', (forall x, f x = g x) -> covers t f h h' -> covers t g h h'.
Proof.
  intros t f g h h' E [A B]. split.
  - revert A. apply hrel_mono. intros x a b _ [S W]. split; auto. rewrite <- E; auto.
  - intros x o j G J. rewrite <- E in J. eauto.
Qed.
Lemma covers_sks : forall t f h h', covers t f h h' -> sks h h'.
Proof. intros t f h h' [A _]. revert A. apply hrel_mono. intros x a b _ [S _]. exact S. Qed.
Lemma append_covers : forall asort l t h h', all_good h -> append_own asort l t h = Ok h' -> covers t (fun x => count_occ Nat.eq_dec [l] x) h h' /\ all_good h'.
Proof.
  intros asort l t h h' A E. pose proof (append_own_good _ _ _ _ _ A E) as A'. split; auto. apply append_own_world in E. 
  assert (W : hrel (wpow t (fun x => count_occ Nat.eq_dec [l] x)) h h').
  { revert E. apply hrel_mono. intros x a b _ [S W]. split; auto. rewrite W. cbn [count_occ]. destruct (Nat.eqb_spec x l) as [->|N].
    - destruct (Nat.eq_dec l l); [|congruence]. simpl. rewrite mmul_mid_r; auto.
    - destruct (Nat.eq_dec l x); [congruence|]. simpl. rewrite mmul_mid_l; auto. }
  split; [exact W|]. intros x o j G J. cbn [count_occ] in J. destruct (Nat.eq_dec l x) as [->|N]; [|lia]. assert (j = 1%nat) by lia. subst j.
  destruct (proj2 (proj2 W) _ _ G) as (o' & G' & _ & Wx). cbn [count_occ] in Wx. destruct (Nat.eq_dec x x); [|congruence].
  rewrite <- Wx. eapply good_ok; eauto.
Qed.

(** Either all goes well, or the walk over the parts stops at one of them. *)
Definition stops (asort : list xr -> list nat) (t : mat) (ps : list loc) (h : heap) (r : res) : Prop :=
  exists pre p post e h1 h', ps = pre ++ p :: post /\ covers t (count_occ Nat.eq_dec pre) h h1 /\ all_good h1 /\
    append_own asort p t h1 = Raise e h' /\ r = Raise e h'.
Lemma stops_later : forall asort t ps qs h h1 r, covers t (count_occ Nat.eq_dec ps) h h1 -> stops asort t qs h1 r -> stops asort t (ps ++ qs) h r.
Proof.
  intros asort t ps qs h h1 r C (pre & p & post & e & h2 & h' & E & C2 & G & A & R). exists (ps ++ pre), p, post, e, h2, h'. split; [rewrite E, app_assoc; auto|].
  split; [|auto]. eapply covers_ext; [|eapply covers_seq; [exact C|exact C2]]. intro x. cbv beta. rewrite count_occ_app. lia.
Qed.
Lemma stops_more : forall asort t ps qs h r, stops asort t ps h r -> stops asort t (ps ++ qs) h r.
Proof. intros asort t ps qs h r (pre & p & post & e & h2 & h' & E & X). exists pre, p, (post ++ qs), e, h2, h'. split; auto. rewrite E, <- app_assoc. auto. Qed.
Lemma children_sks : forall h h', sks h h' -> children_exist h -> children_exist h'.
Proof.
  intros h h' S CE x ox c' Gx Ix. destruct (hrel_get_back _ _ _ _ _ S Gx) as (o2 & G2 & (_ & K & _)). rewrite K in Ix.
  destruct (CE _ _ _ G2 Ix) as (oc2 & Gc2). destruct (proj2 (proj2 S) _ _ Gc2) as (oc3 & Gc3 & _). eauto.
Qed.
Lemma transform_split : forall asort n l t h o, wf h -> all_good h -> children_exist h -> enough n h l -> get h l = Some o ->
  (exists h', transform asort n l t h = Ok h' /\ covers t (count_occ Nat.eq_dec (parts_upto n h l)) h h' /\ all_good h') \/
  stops asort t (parts_upto n h l) h (transform asort n l t h).
Proof.
  intros asort n. induction n as [|n IH]; intros l t h o W A CE E G; [destruct E|]. cbn [transform parts_upto]. rewrite G.
  destruct (append_split asort l t h o W A G) as [(_ & h1 & Ap)|(_ & e & h1 & _ & Ap & _)]; rewrite Ap; cbn [bind].
  2: { right. exists [], l, (flat_map (parts_upto n h) (children (o_kind o))), e, h, h1. split; [reflexivity|]. split; [apply covers_none|]. auto. }
  destruct (append_covers _ _ _ _ _ A Ap) as (C1 & A1). pose proof (covers_sks _ _ _ _ C1) as S1.
  assert (Ech : forall c, In c (children (o_kind o)) -> enough n h c /\ exists oc, get h c = Some oc) by (intros; split; eauto).
  assert (K : (exists h', each (fun c => transform asort n c t) (children (o_kind o)) h1 = Ok h' /\
      covers t (count_occ Nat.eq_dec (flat_map (parts_upto n h) (children (o_kind o)))) h1 h' /\ all_good h') \/
      stops asort t (flat_map (parts_upto n h) (children (o_kind o))) h1 (each (fun c => transform asort n c t) (children (o_kind o)) h1)).
  { clear Ap C1. revert h1 A1 S1 Ech. induction (children (o_kind o)) as [|c cs IHc]; intros h1 A1 S1 Ech.
    - left. exists h1. split; [reflexivity|]. split; [apply covers_none|auto].
    - cbn [each flat_map]. destruct (Ech c (or_introl eq_refl)) as (En & oc & Gc). destruct (proj2 (proj2 S1) _ _ Gc) as (oc1 & Gc1 & _).
      destruct (IH c t h1 oc1) as [(h2 & T & C2 & A2)|St]; auto.
      + eapply wf_kws; [apply sks_kws, S1|auto].
      + eapply children_sks; eauto.
      + eapply enough_sks; eauto.
      + rewrite T. cbn [bind]. rewrite (parts_upto_sks n h h1 c S1) in C2. pose proof (covers_sks _ _ _ _ C2) as S2.
        destruct (IHc h2 A2 (sks_trans _ _ _ S1 S2)) as [(h3 & Ea & C3 & A3)|St].
        * intros c' I. apply Ech. right; auto.
        * left. exists h3. split; [exact Ea|]. split; [|auto]. eapply covers_ext; [|eapply covers_seq; [exact C2|exact C3]].
          intro x. cbv beta. rewrite count_occ_app. apply Nat.add_comm.
        * right. eapply stops_later; eauto.
      + right. rewrite (parts_upto_sks n h h1 c S1) in St. destruct St as (pre & p & post & e & h2 & h' & Ep & C & Gd & Aq & R). rewrite R. cbn [bind].
        apply stops_more. exists pre, p, post, e, h2, h'. auto 10. }
  destruct K as [(h' & Ea & C & Ag)|St].
  - left. exists h'. split; [exact Ea|]. split; [|auto]. eapply covers_ext; [|eapply covers_seq; [exact C1|exact C]].
    intro x. cbv beta. cbn [count_occ]. destruct (Nat.eq_dec l x); lia.
  - right. apply (stops_later asort t [l] _ h h1); auto.
Qed.

Section Reached.
  Variables (asort : list xr -> list nat) (cs : list call) (h : heap) (l : loc) (o : obj) (m : motion) (t : mat).
  Hypothesis R : run_prog asort cs empty_heap = Ok h.
  Hypothesis NS : Forall no_set cs.
  Hypothesis G : get h l = Some o.
  Hypothesis M : motion_matrix m = Some t.
  Lemma reached_split : (exists h', apply_motion asort l m h = Ok h' /\ covers t (times h l) h h' /\ all_good h') \/
    stops asort t (parts h l) h (apply_motion asort l m h).
  Proof.
    unfold apply_motion. rewrite M. pose proof (run_prog_acyclic _ _ _ _ NS empty_acyclic R) as AC. eapply transform_split.
    - eapply wf_run_prog; eauto using wf_empty.
    - eapply run_prog_good; eauto using empty_good.
    - apply acyclic_children; auto.
    - apply acyclic_enough; auto. eapply get_depth; eauto.
    - exact G.
  Qed.
  Lemma stops_bad : forall r, stops asort t (parts h l) h r -> exists pre p post e h1 op op1 h' op', parts h l = pre ++ p :: post /\
    covers t (count_occ Nat.eq_dec pre) h h1 /\ all_good h1 /\ get h p = Some op /\ get h1 p = Some op1 /\ r = Raise e h' /\
    o_world op1 = mmul (power (count_occ Nat.eq_dec pre p) t) (o_world op) /\
    ~ ok_mat (mmul t (o_world op1)) /\ get h' p = Some op' /\ half_moved e t op1 op' /\ (forall x, x <> p -> get h' x = get h1 x).
  Proof.
    intros r (pre & p & post & e & h1 & h' & E & C & A & Ap & ->).
    assert (W : wf h) by (eapply wf_run_prog; eauto using wf_empty). pose proof (covers_sks _ _ _ _ C) as S.
    assert (W1 : wf h1) by (eapply wf_kws; [apply sks_kws, S|auto]).
    destruct (get h1 p) as [op1|] eqn:G1.
    - destruct (append_split asort p t h1 op1 W1 A G1) as [(_ & h2 & X)|(B & e2 & h2 & op' & X & G' & H & F & _)]; rewrite X in Ap; [discriminate|].
      injection Ap as <- <-. destruct (hrel_get_back _ _ _ _ _ (proj1 C) G1) as (op & Gp & _ & Wp).
      exists pre, p, post, e2, h1, op, op1, h2, op'. repeat (split; [solve [auto]|]). auto.
    - exfalso. assert (P : forall n y, children_exist h -> (exists oy, get h y = Some oy) -> forall z, In z (parts_upto n h y) -> exists oz, get h z = Some oz).
      { clear. induction n as [|n IH]; intros y CE (oy & Gy) z I; [destruct I|]. simpl in I. rewrite Gy in I. destruct I as [<-|I]; [eauto|].
        apply in_flat_map in I. destruct I as (c & Ic & Iz). eapply IH; [auto| |exact Iz]. eauto. }
      destruct (P (depth h) l (acyclic_children _ (run_prog_acyclic _ _ _ _ NS empty_acyclic R)) (ex_intro _ o G) p) as (op & Gp).
      { unfold parts in E. rewrite E. apply in_or_app. right; left; auto. }
      destruct (proj2 (proj2 S) _ _ Gp) as (x & Gx & _). congruence.
  Qed.
End Reached.

Lemma can_take_ok : forall w, can_take w <-> ok_mat w.
Proof.
  intro w. unfold can_take, ok_mat, dir_tolerance, obj_direction. split.
  - intros [(i & I) T]. split; auto. eapply is_inverse_det; eauto.
  - intros [T D]. split; auto. destruct (minv w) as [i|] eqn:M; [exists i; apply minv_some; auto|]. apply minv_none in M. contradiction.
Qed.

Theorem which_succeed : forall asort cs h l o m t, run_prog asort cs empty_heap = Ok h -> Forall no_set cs -> get h l = Some o -> motion_matrix m = Some t ->
  ((exists h', apply_motion asort l m h = Ok h') <->
   forall x ox k, get h x = Some ox -> (1 <= k <= times h l x)%nat -> can_take (mmul (power k t) (get_world_transform ox))).
Proof.
  intros asort cs h l o m t R NS G M. destruct (reached_split asort cs h l o m t R NS G M) as [(h' & E & C & _)|St].
  - split; [|intros _; eauto]. intros _ x ox k Gx K. apply can_take_ok. exact (proj2 C x ox k Gx K).
  - destruct (stops_bad asort cs h l o t R NS G _ St) as (pre & p & post & e & h1 & op & op1 & h' & op' & E & C & A & Gp & G1 & Er & Wp & B & _).
    split; [intros (h2 & X); rewrite X in Er; discriminate|]. intro F. exfalso. apply B. apply can_take_ok. rewrite Wp, <- mmul_assoc.
    change (mmul t (power (count_occ Nat.eq_dec pre p) t)) with (power (S (count_occ Nat.eq_dec pre p)) t). apply (F p op); auto.
    unfold times. rewrite E, count_occ_app. cbn [count_occ]. destruct (Nat.eq_dec p p); [|congruence]. split; [lia|]. apply le_n_S, Nat.le_add_r || (rewrite <- plus_n_Sm; apply le_n_S, Nat.le_add_r).
Qed.

Theorem what_is_left : forall asort cs h l o m t e h', run_prog asort cs empty_heap = Ok h -> Forall no_set cs -> get h l = Some o -> motion_matrix m = Some t ->
  apply_motion asort l m h = Raise e h' ->
  (e = ValueError \/ e = LinAlgError) /\
  exists pre p post, parts h l = pre ++ p :: post /\
   (forall x ox, get h x = Some ox -> exists ox', get h' x = Some ox' /\ o_id ox' = o_id ox /\ o_kind ox' = o_kind ox /\
      get_world_transform ox' = mmul (power (count_occ Nat.eq_dec (pre ++ [p]) x) t) (get_world_transform ox) /\
      (x <> p -> consistent ox') /\
      (x = p -> ~ can_take (get_world_transform ox') /\ ~ consistent ox' /\
         is_inverse (mmul (power (count_occ Nat.eq_dec pre p) t) (get_world_transform ox)) (get_object_transform ox') /\
         get_position ox' = to_world_coordinates ox' (point 0 0 0))).
Proof.
  intros asort cs h l o m t e h' R NS G M Ra. destruct (reached_split asort cs h l o m t R NS G M) as [(h2 & E & _)|St]; [rewrite E in Ra; discriminate|].
  destruct (stops_bad asort cs h l o t R NS G _ St) as (pre & p & post & e2 & h1 & op & op1 & h2 & op' & E & C & A & Gp & G1 & Er & Wp & B & G' & Hm & F).
  rewrite Ra in Er. injection Er as <- <-. destruct Hm as (Sk & Bx & Wo & Ob & Og & De). split; [destruct De as [[? _]|[? _]]; auto|].
  exists pre, p, post. split; [exact E|]. intros x ox Gx. destruct (Nat.eq_dec x p) as [->|N].
  - rewrite Gp in Gx. injection Gx as <-. exists op'. split; [exact G'|].
    destruct (proj2 (proj2 (proj1 C)) _ _ Gp) as (z & Gz & (Sz1 & Sz2 & _) & _). rewrite G1 in Gz. injection Gz as <-. destruct Sk as (Sk1 & Sk2 & _).
    split; [congruence|]. split; [congruence|]. unfold get_world_transform, get_object_transform, get_position, to_world_coordinates. split.
    { rewrite Wo, Wp, <- mmul_assoc, count_occ_app. cbn [count_occ]. destruct (Nat.eq_dec p p); [|congruence]. rewrite Nat.add_1_r. reflexivity. }
    split; [congruence|]. intros _. assert (NT : ~ can_take (o_world op')) by (rewrite can_take_ok, Wo; exact B). split; [exact NT|]. split; [|split].
    + intros (I & _ & _ & _ & NV & k & K & Dk). unfold get_world_transform, get_object_transform in I.
      (* the transforms would still be inverse to each other *)
      rewrite Ob, Wo in I. destruct (A p op1 G1) as (_ & (I1 & _ & T1 & _) & _).
      assert (EQ : mmul t (o_world op1) = o_world op1).
      { destruct I as [Ia Ib], I1 as [Ic Id]. rewrite <- (mmul_mid_r (mmul t (o_world op1))), <- Ic, <- mmul_assoc, Ib, mmul_mid_l. reflexivity. }
      apply B. rewrite EQ. split; [exact T1|]. eapply is_inverse_det; eauto.
    + rewrite Ob, <- Wp. destruct (A p op1 G1) as (_ & (I1 & _) & _). exact I1.
    + exact Og.
  - destruct (proj2 (proj2 (proj1 C)) _ _ Gx) as (ox1 & Gx1 & (S1 & S2 & _) & W1). exists ox1. rewrite F by auto. split; [exact Gx1|]. split; [exact S1|]. split; [exact S2|].
    split. { unfold get_world_transform. rewrite W1, count_occ_app. cbn [count_occ]. destruct (Nat.eq_dec p x); [congruence|]. rewrite Nat.add_0_r. reflexivity. }
    split; [|congruence]. intros _. apply matc_consistent. apply (A x ox1 Gx1).
Qed.

Theorem singular_fails : forall asort cs h l o m t, run_prog asort cs empty_heap = Ok h -> Forall no_set cs -> get h l = Some o -> motion_matrix m = Some t ->
  (forall i, ~ is_inverse t i) ->
  exists e h' o', apply_motion asort l m h = Raise e h' /\ (forall x, x <> l -> get h' x = get h x) /\ get h' l = Some o' /\
    get_world_transform o' = mmul t (get_world_transform o) /\ get_object_transform o' = get_object_transform o /\
    get_position o' = to_world_coordinates o' (point 0 0 0) /\ o_box o' = o_box o /\ o_id o' = o_id o /\ o_kind o' = o_kind o /\
    (e = ValueError /\ get_orientation o' = get_orientation o \/ e = LinAlgError).
Proof.
  intros asort cs h l o m t R NS G M Sg. unfold apply_motion. rewrite M. unfold depth. cbn [transform]. rewrite G.
  assert (W : wf h) by (eapply wf_run_prog; eauto using wf_empty). assert (A : all_good h) by (eapply run_prog_good; eauto using empty_good).
  destruct (append_split asort l t h o W A G) as [((_ & D) & _)|(_ & e & h' & o' & X & G' & (Sk & Bx & Wo & Ob & Og & De) & F & _)].
  - exfalso. rewrite mdet_mmul in D. destruct (minv t) as [i|] eqn:Mi; [exact (Sg i (minv_some _ _ Mi))|]. apply minv_none in Mi. rewrite Mi in D. lra.
  - rewrite X. exists e, h', o'. split; [reflexivity|]. split; [exact F|]. split; [exact G'|]. destruct Sk as (S1 & S2 & _).
    unfold get_world_transform, get_object_transform, get_position, get_orientation, to_world_coordinates. repeat (split; [solve [auto]|]).
    destruct De as [(E1 & E2 & _)|(E1 & _)]; auto.
Qed.
