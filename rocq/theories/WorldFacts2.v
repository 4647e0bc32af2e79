(** * WorldFacts2: ids, watchlists, bounding boxes of CSG objects *)
From Coq Require Import Reals List Bool ZArith Lra Lia.
Import ListNotations.
From Verif Require Import XR XRFacts Arr Lin LinFacts Prim Csg Surf SpecGeom SpecTree World SpecWorld WorldFacts CsgProps.
Open Scope R_scope.

(** ** ids *)
Definition ids (h : heap) : list nat := map o_id (h_objs h).
Lemma nth_ext_opt : forall A (l l' : list A), (forall i, nth_error l i = nth_error l' i) -> l = l'.
Proof.
  induction l as [|a l IH]; intros [|b l'] H; auto.
  - specialize (H 0%nat). discriminate.
  - specialize (H 0%nat). discriminate.
  - pose proof (H 0%nat) as H0. injection H0 as ->. f_equal. apply IH. intro i. apply (H (S i)).
Qed.
Lemma hrel_ids : forall (P : loc -> obj -> obj -> Prop) h h', (forall x a b, P x a b -> o_id b = o_id a) -> hrel P h h' -> ids h' = ids h.
Proof.
  intros P h h' H R. apply nth_ext_opt. intro i. unfold ids. rewrite !nth_error_map. fold (get h' i). fold (get h i).
  destruct (get h i) as [o|] eqn:G.
  - destruct R as (_ & _ & C). destruct (C _ _ G) as (o' & -> & K). simpl. f_equal. eauto.
  - destruct (get h' i) as [o'|] eqn:G'; auto. destruct (hrel_get_back _ _ _ _ _ R G') as (o & G2 & _). congruence.
Qed.
Definition grows (h h' : heap) : Prop :=
  (ids h' = ids h /\ (h_next h <= h_next h')%nat) \/ (ids h' = ids h ++ [h_next h] /\ h_next h' = S (h_next h)).
Lemma ids_alloc : forall k h, ids (alloc k h) = ids h ++ [h_next h].
Proof. intros. unfold ids, alloc; cbn [h_objs]. rewrite map_app. auto. Qed.
Lemma upd_ids : forall h l f, (forall o, o_id (f o) = o_id o) -> ids (upd h l f) = ids h.
Proof. intros h l f H. apply (hrel_ids (fun _ a b => o_id b = o_id a)); auto. apply hrel_upd; auto. Qed.
Lemma sks_ids : forall h h', sks h h' -> ids h' = ids h.
Proof. intros h h'. apply hrel_ids. intros x a b (H & _). auto. Qed.
Lemma exts_ids : forall h h', exts h h' -> ids h' = ids h.
Proof. intros h h'. apply hrel_ids. intros x a b (H & _). auto. Qed.
Lemma grows_refl : forall h, grows h h.
Proof. left; auto. Qed.

Lemma run_call_grows : forall asort c h h', res_heap (run_call asort c h) = Some h' -> grows h h'.
Proof.
  intros asort c h h' H. destruct c as [|p m|ms|g ms|op a b|l o|l|l]; cbn [run_call] in H.
  - injection H as <-. right. rewrite ids_alloc. auto.
  - unfold new_surface in H. destruct (prim_init p); injection H as <-; [right|left].
    + rewrite !upd_ids by auto. rewrite ids_alloc. auto.
    + unfold ids; simpl. auto.
  - unfold new_group in H. destruct (valid_locs h ms); injection H as <-; [|apply grows_refl]. right. rewrite ids_alloc. auto.
  - unfold group_set in H. destruct (get h g) as [o|]; [|injection H as <-; apply grows_refl].
    destruct (o_kind o); [| | |destruct (valid_locs h ms)]; injection H as <-; try apply grows_refl.
    left. rewrite upd_ids; auto.
  - destruct (new_csg_exts _ _ _ _ _ _ H) as [->|X]; [apply grows_refl|]. right. rewrite (exts_ids _ _ X).
    destruct X as (N & _). rewrite N. unfold csg_start. rewrite upd_ids, ids_alloc by auto. auto.
  - unfold apply_motion in H. destruct (motion_matrix o); [|injection H as <-; apply grows_refl].
    apply transform_sks in H. left. split; [apply sks_ids; auto|]. destruct H as (N & _). lia.
  - apply set_normals_exts in H. left. split; [apply exts_ids; auto|]. destruct H as (N & _). lia.
  - apply set_normals_exts in H. left. split; [apply exts_ids; auto|]. destruct H as (N & _). lia.
Qed.
Definition ids_ok (h : heap) : Prop := NoDup (ids h) /\ forall i, In i (ids h) -> (i < h_next h)%nat.
Lemma grows_ok : forall h h', grows h h' -> ids_ok h -> ids_ok h'.
Proof.
  intros h h' [[E L]|[E L]] [N B]; split; rewrite ?E, ?L; auto.
  - intros i Hi. specialize (B i Hi). lia.
  - apply NoDup_rev in N. rewrite <- (rev_involutive (ids h ++ _)). apply NoDup_rev. rewrite rev_unit. constructor; auto.
    intro K. apply in_rev in K. specialize (B _ K). lia.
  - intros i Hi. apply in_app_iff in Hi. destruct Hi as [Hi|[<-|[]]]; [specialize (B i Hi)|]; lia.
Qed.
Lemma grows_keep : forall h h' x o, grows h h' -> get h x = Some o -> exists o', get h' x = Some o' /\ o_id o' = o_id o.
Proof.
  intros h h' x o Gr G.
  assert (K : nth_error (ids h') x = Some (o_id o)).
  { assert (K0 : nth_error (ids h) x = Some (o_id o)) by (unfold ids; rewrite nth_error_map; unfold get in G; rewrite G; auto).
    destruct Gr as [[-> _]|[-> _]]; auto. rewrite nth_error_app1; auto. apply nth_error_Some. congruence. }
  unfold ids in K. rewrite nth_error_map in K. fold (get h' x) in K. destruct (get h' x) as [o'|]; [|discriminate].
  exists o'. split; auto. simpl in K. congruence.
Qed.
Lemma run_catching_ok : forall asort cs h h', run_catching asort cs h = Some h' -> ids_ok h -> ids_ok h' /\
  (h_next h <= h_next h')%nat /\
  forall x o, get h x = Some o -> exists o', get h' x = Some o' /\ o_id o' = o_id o.
Proof.
  intros asort cs. induction cs as [|c cs IH]; intros h h' H K.
  - injection H as <-. split; eauto.
  - simpl in H. assert (X : exists h1, res_heap (run_call asort c h) = Some h1 /\ run_catching asort cs h1 = Some h').
    { destruct (run_call asort c h) as [h1|e h1|]; try discriminate; exists h1; auto. }
    destruct X as (h1 & R & H1). pose proof (run_call_grows _ _ _ _ R) as Gr.
    destruct (IH _ _ H1 (grows_ok _ _ Gr K)) as (A & A' & B). split; auto.
    split; [destruct Gr as [[_ L]|[_ L]]; lia|]. intros x o G.
    destruct (grows_keep _ _ _ _ Gr G) as (o1 & G1 & E1). destruct (B _ _ G1) as (o2 & G2 & E2). exists o2. split; auto. congruence.
Qed.
Lemma empty_ids_ok : ids_ok empty_heap.
Proof. split; [constructor|intros i []]. Qed.

(** ** structure: children come first, parents are watched *)
Definition is_shape (k : kind) : Prop := match k with KSurf _ _ | KCsg _ _ _ => True | _ => False end.
Definition parent (h : heap) (y x : loc) : Prop :=
  exists oy op a b, get h y = Some oy /\ o_kind oy = KCsg op a b /\ (x = a \/ x = b).
Definition watcher (h : heap) (x : loc) (w : handler) : Prop :=
  exists y, (w = HMat y \/ w = HCsgBox y) /\ parent h y x.
Definition hooked (h : heap) (c y : loc) : Prop :=
  exists oc, get h c = Some oc /\ is_shape (o_kind oc) /\ In (HCsgBox y) (skipn 2 (o_watch oc)).
Definition wfx (h : heap) (x : loc) (o : obj) : Prop :=
  match o_kind o with
  | KSurf _ _ => exists rest, o_watch o = HMat x :: HLeafBox x :: rest /\ Forall (watcher h x) rest
  | KCsg _ a b =>
      (exists rest, o_watch o = HMat x :: HCsgBox x :: rest /\ Forall (watcher h x) rest) /\
      (a < x)%nat /\ (b < x)%nat /\ hooked h a x /\ hooked h b x
  | _ => o_watch o = [HMat x]
  end.
Definition wf (h : heap) : Prop := forall x o, get h x = Some o -> wfx h x o.

(** preserved when kinds and watchlists are *)
Definition kw (o o' : obj) : Prop := o_kind o' = o_kind o /\ o_watch o' = o_watch o.
Definition kws := hrel (fun _ => kw).
Lemma kws_refl : forall h, kws h h.
Proof. intro h. apply hrel_refl. split; auto. Qed.
Lemma kws_trans : forall a b c, kws a b -> kws b c -> kws a c.
Proof. intros a b c. apply hrel_trans. intros x o1 o2 o3 [A B] [C D]. split; congruence. Qed.
Lemma sks_kws : forall h h', sks h h' -> kws h h'.
Proof. intros h h'. apply hrel_mono. intros x a b _ (A & B & C & D). split; auto. Qed.
Lemma parent_kws : forall h h' y x, kws h h' -> parent h y x -> parent h' y x.
Proof.
  intros h h' y x (_ & _ & C) (oy & op & a & b & G & K & E). destruct (C _ _ G) as (o' & G' & [K' _]).
  exists o', op, a, b. split; auto. split; auto. congruence.
Qed.
Lemma parent_kws_back : forall h h' y x, kws h h' -> parent h' y x -> parent h y x.
Proof.
  intros h h' y x S (oy & op & a & b & G & K & E). destruct (hrel_get_back _ _ _ _ _ S G) as (o & G' & [K' _]).
  exists o, op, a, b. split; auto. split; auto. congruence.
Qed.
Lemma wf_kws : forall h h', kws h h' -> wf h -> wf h'.
Proof.
  intros h h' S W x o' G'. destruct (hrel_get_back _ _ _ _ _ S G') as (o & G & [K Wt]).
  assert (F : forall rest, Forall (watcher h x) rest -> Forall (watcher h' x) rest).
  { intro rest. apply Forall_impl. intros w (y & E & P). exists y. split; auto. eapply parent_kws; eauto. }
  assert (Hk : forall c y, hooked h c y -> hooked h' c y).
  { intros c y (oc & Gc & Sh & I). destruct S as (_ & _ & C). destruct (C _ _ Gc) as (oc' & Gc' & [Kc Wc]).
    exists oc'. rewrite Kc, Wc. auto. }
  specialize (W x o G). unfold wfx in *. rewrite K, Wt. destruct (o_kind o); auto.
  - destruct W as (rest & -> & A). eauto.
  - destruct W as ((rest & -> & A) & B & C & D & E). split; [eauto|split; [auto|split; auto]].
Qed.

Lemma set_normals_kws : forall n k l h h', res_heap (set_normals n k l h) = Some h' -> kws h h'.
Proof.
  induction n as [|n IH]; intros k l h h' H; [discriminate|]. simpl in H.
  destruct (get h l) as [o|] eqn:G; [|injection H as <-; apply kws_refl].
  destruct (o_kind o) eqn:K; try (injection H as <-; apply kws_refl).
  - injection H as <-. apply hrel_upd; intros; split; auto.
  - destruct (res_heap_bind _ _ _ H) as [(h1 & E & K1)|(e & E)].
    + eapply kws_trans; [apply (IH k l0); rewrite E; reflexivity|eauto].
    + apply (IH k l0). rewrite E; auto.
Qed.

Lemma attach_ok : forall c p h h', attach_to c p h = Ok h' -> exists oc op,
  get h c = Some oc /\ get h p = Some op /\ is_shape (o_kind oc) /\
  h' = upd h c (with_watch (o_watch oc ++ o_watch op)).
Proof.
  intros c p h h' H. unfold attach_to in H. destruct (get h c) as [oc|]; [|discriminate].
  destruct (get h p) as [op|]; [|discriminate]. exists oc, op. split; auto. split; auto.
  destruct (o_kind oc); try discriminate; injection H as <-; split; simpl; auto.
Qed.
Lemma valid_two : forall h a b, valid_locs h [a; b] = true -> (a < length (h_objs h))%nat /\ (b < length (h_objs h))%nat.
Proof.
  intros h a b H. unfold valid_locs in H. simpl in H. apply andb_true_iff in H. destruct H as [A B].
  apply andb_true_iff in B. destruct B as [B _]. apply Nat.ltb_lt in A, B. auto.
Qed.

(** the objects after the construction of a CSG node *)
Lemma new_csg_shape : forall asort op a b h h', new_csg asort op a b h = Ok h' ->
  let n := fresh h in
  (a < n)%nat /\ (b < n)%nat /\
  (exists oa, get h a = Some oa /\ is_shape (o_kind oa)) /\
  (exists ob, get h b = Some ob /\ is_shape (o_kind ob)) /\
  length (h_objs h') = S (length (h_objs h)) /\ h_next h' = S (h_next h) /\
  (exists on, get h' n = Some on /\ o_kind on = KCsg op a b /\ o_watch on = [HMat n; HCsgBox n]) /\
  forall x o, get h x = Some o -> exists o', get h' x = Some o' /\ o_kind o' = o_kind o /\
    o_watch o' = o_watch o ++ (if Nat.eqb x a then [HMat n; HCsgBox n] else []) ++
                              (if Nat.eqb x b then [HMat n; HCsgBox n] else []).
Proof.
  intros asort op a b h h' H n. unfold new_csg in H.
  destruct (valid_locs h [a; b]) eqn:V; [|discriminate]. simpl negb in H. cbv iota zeta in H.
  apply valid_two in V. destruct V as [Va Vb].
  change (fresh h) with n in H.
  assert (Nn : n = length (h_objs h)) by reflexivity.
  set (h2 := upd (alloc (KCsg op a b) h) n (fun o => with_watch (o_watch o ++ [HCsgBox n]) o)) in *.
  set (on := Obj (h_next h) (KCsg op a b) mid mid (point 0 0 0) (vector 0 0 1) [HMat n; HCsgBox n] empty_box 1).
  assert (G2n : get h2 n = Some on).
  { unfold h2. rewrite (get_upd_same _ _ _ _ (get_alloc_new (KCsg op a b) h)). reflexivity. }
  assert (G2 : forall x, (x < n)%nat -> get h2 x = get h x).
  { intros x L. unfold h2. rewrite get_upd_other by lia. apply get_alloc_old. lia. }
  assert (L2 : length (h_objs h2) = S (length (h_objs h))) by (unfold h2; rewrite len_upd; apply len_alloc).
  destruct (attach_to a n h2) as [h3|e h3|] eqn:E3; try discriminate. cbn [bind] in H.
  destruct (attach_to b n h3) as [h4|e h4|] eqn:E4; try discriminate. cbn [bind] in H.
  destruct (attach_ok _ _ _ _ E3) as (oa & on1 & Ga & Gn1 & Sa & ->). rewrite G2n in Gn1. injection Gn1 as <-.
  destruct (attach_ok _ _ _ _ E4) as (ob & on2 & Gb & Gn2 & Sb & ->). clear E3 E4.
  rewrite get_upd_other in Gn2 by lia. rewrite G2n in Gn2. injection Gn2 as <-.
  rewrite G2 in Ga by lia.
  cbn [o_watch on] in *.
  destruct (match op with DIFFERENCE => _ | _ => _ end) as [h5|e h5|] eqn:E5 in H; try discriminate. cbn [bind] in H.
  assert (S45 : kws (upd (upd h2 a (with_watch (o_watch oa ++ [HMat n; HCsgBox n]))) b (with_watch (o_watch ob ++ [HMat n; HCsgBox n]))) h5).
  { destruct op; try (injection E5 as <-; apply kws_refl). eapply (set_normals_kws _ (-1)). rewrite E5. reflexivity. }
  assert (S5 : kws h5 h').
  { apply sks_kws, wsk_sks. apply (run_handler_wsk asort (HCsgBox n)). rewrite H. reflexivity. }
  pose proof (kws_trans _ _ _ S45 S5) as S. clear H E5 S45 S5.
  assert (Gb' : exists ob0, get h b = Some ob0 /\ is_shape (o_kind ob0)).
  { rewrite get_upd in Gb. rewrite G2 in Gb by lia. destruct (get h b) as [ob0|]; [|destruct (b =? a); discriminate].
    exists ob0. split; auto. destruct (b =? a); injection Gb as <-; auto. }
  split; [lia|]. split; [lia|]. split; [eauto|]. split; [auto|].
  destruct S as (Nx & Lh & C). rewrite !len_upd, L2 in Lh. split; [auto|]. split; [exact Nx|]. split.
  - destruct (C n on) as (o' & G' & [K Wt]); [rewrite !get_upd_other by lia; auto|]. exists o'. auto.
  - intros x o G. pose proof (get_lt _ _ _ G) as Lx.
    set (f1 := with_watch (o_watch oa ++ [HMat n; HCsgBox n])) in *.
    set (f2 := with_watch (o_watch ob ++ [HMat n; HCsgBox n])) in *.
    destruct (Nat.eqb_spec x b) as [Eb|Nb].
    + destruct (C x (f2 ob)) as (o' & G' & [K Wt]); [subst x; apply get_upd_same; auto|]. exists o'. split; auto.
      rewrite K, Wt. unfold f2. cbn [with_watch o_kind o_watch]. rewrite get_upd in Gb. rewrite G2 in Gb by lia. rewrite <- Eb, G in Gb.
      destruct (Nat.eqb_spec x a) as [Ea|Na]; injection Gb as <-.
      * unfold f1. cbn [with_watch o_kind o_watch]. subst x. rewrite Ea in G. rewrite G in Ga. injection Ga as <-. rewrite <- app_assoc. auto.
      * rewrite app_nil_l. auto.
    + destruct (Nat.eqb_spec x a) as [Ea|Na].
      * destruct (C x (f1 oa)) as (o' & G' & [K Wt]); [rewrite get_upd_other by auto; subst x; apply get_upd_same; rewrite G2 by lia; auto|].
        exists o'. split; auto. rewrite K, Wt. unfold f1. cbn [with_watch o_kind o_watch]. subst x. rewrite G in Ga. injection Ga as <-.
        rewrite app_nil_r. auto.
      * destruct (C x o) as (o' & G' & [K Wt]); [rewrite !get_upd_other by auto; rewrite G2 by lia; auto|].
        exists o'. rewrite app_nil_r. auto.
Qed.

Lemma wf_alloc : forall k h, wf h -> match k with KPlain | KGroup _ => True | _ => False end -> wf (alloc k h).
Proof.
  intros k h W K x o G. destruct (get_alloc _ _ _ _ G) as [G1|(-> & ->)].
  - specialize (W x o G1).
    assert (P : forall y z, parent h y z -> parent (alloc k h) y z).
    { intros y z (oy & op & a & b & Gy & R). exists oy, op, a, b. split; auto. rewrite get_alloc_old; auto. eapply get_lt; eauto. }
    assert (F : forall rest, Forall (watcher h x) rest -> Forall (watcher (alloc k h) x) rest).
    { intro rest. apply Forall_impl. intros w (y & E & Q). exists y. auto. }
    assert (Hk : forall c y, hooked h c y -> hooked (alloc k h) c y).
    { intros c y (oc & Gc & R). exists oc. split; auto. rewrite get_alloc_old; auto. eapply get_lt; eauto. }
    unfold wfx in *. destruct (o_kind o); auto.
    + destruct W as (rest & -> & A). eauto.
    + destruct W as ((rest & -> & A) & B & C & D & E). split; [eauto|split; [auto|split; auto]].
  - unfold wfx; cbn [o_kind o_watch]. destruct k; tauto.
Qed.

Lemma wf_new_surface : forall p m h h', wf h -> new_surface p m h = Ok h' -> wf h'.
Proof.
  intros p m h h' W H. unfold new_surface in H. destruct (prim_init p); [|discriminate]. injection H as <-.
  set (h' := upd _ _ _).
  assert (Old : forall x, (x < length (h_objs h))%nat -> get h' x = get h x).
  { intros x L. unfold h'. rewrite !get_upd_other by (unfold fresh; lia). apply get_alloc_old; auto. }
  assert (New : exists o, get h' (fresh h) = Some o /\ o_kind o = KSurf p m /\ o_watch o = [HMat (fresh h); HLeafBox (fresh h)]).
  { eexists. split; [unfold h'; rewrite (get_upd_same _ _ _ _ (get_upd_same _ _ _ _ (get_alloc_new (KSurf p m) h))); reflexivity|]. auto. }
  intros x o G. destruct (Nat.eq_dec x (fresh h)) as [->|N].
  - destruct New as (o1 & G1 & K & Wt). rewrite G in G1. injection G1 as <-. unfold wfx. rewrite K, Wt. exists []. auto.
  - assert (Lx : (x < length (h_objs h))%nat).
    { pose proof (get_lt _ _ _ G) as L. unfold h' in L. rewrite !len_upd, len_alloc in L. unfold fresh in N. lia. }
    rewrite Old in G by auto. specialize (W x o G).
    assert (P : forall y z, parent h y z -> parent h' y z).
    { intros y z (oy & op & a & b & Gy & R). exists oy, op, a, b. split; auto. rewrite Old; auto. eapply get_lt; eauto. }
    assert (F : forall rest, Forall (watcher h x) rest -> Forall (watcher h' x) rest).
    { intro rest. apply Forall_impl. intros w (y & E & Q). exists y. auto. }
    assert (Hk : forall c y, hooked h c y -> hooked h' c y).
    { intros c y (oc & Gc & R). exists oc. split; auto. rewrite Old; auto. eapply get_lt; eauto. }
    unfold wfx in *. destruct (o_kind o); auto.
    + destruct W as (rest & -> & A). eauto.
    + destruct W as ((rest & -> & A) & B & C & D & E). split; [eauto|split; [auto|split; auto]].
Qed.

Lemma wf_group_set : forall g ms h h', wf h -> group_set g ms h = Ok h' -> wf h'.
Proof.
  intros g ms h h' W H. unfold group_set in H. destruct (get h g) as [og|] eqn:Gg; [|discriminate].
  destruct (o_kind og) eqn:Kg; try discriminate. destruct (valid_locs h ms); [|discriminate]. injection H as <-.
  assert (P : forall y z, parent h y z -> parent (upd h g (with_members ms)) y z).
  { intros y z (oy & op & a & b & Gy & Ky & R). exists oy, op, a, b. split; auto. rewrite get_upd_other; auto. intros ->. congruence. }
  assert (Hk : forall c y, hooked h c y -> hooked (upd h g (with_members ms)) c y).
  { intros c y (oc & Gc & Sc & R). exists oc. split; auto. rewrite get_upd_other; auto. intros ->. rewrite Gg in Gc. injection Gc as <-. rewrite Kg in Sc. destruct Sc. }
  intros x o G. rewrite get_upd in G. destruct (Nat.eqb_spec x g) as [->|N].
  - rewrite Gg in G. injection G as <-. specialize (W g og Gg). unfold wfx in *. rewrite Kg in W. exact W.
  - assert (F : forall rest, Forall (watcher h x) rest -> Forall (watcher (upd h g (with_members ms)) x) rest).
    { intro rest. apply Forall_impl. intros w (y & E & Q). exists y. auto. }
    specialize (W x o G). unfold wfx in *. destruct (o_kind o); auto.
    + destruct W as (rest & -> & A). eauto.
    + destruct W as ((rest & -> & A) & B & C & D & E). split; [eauto|split; [auto|split; auto]].
Qed.

Lemma wf_new_csg : forall asort op a b h h', wf h -> new_csg asort op a b h = Ok h' -> wf h'.
Proof.
  intros asort op a b h h' W H. destruct (new_csg_shape _ _ _ _ _ _ H) as (La & Lb & (oa & Ga & Sa) & (ob & Gb & Sb) & Len & Nxt & (on & Gn & Kn & Wn) & C).
  set (n := fresh h) in *. assert (En : n = length (h_objs h)) by reflexivity.
  assert (P : forall y z, parent h y z -> parent h' y z).
  { intros y z (oy & op' & a' & b' & Gy & Ky & R). destruct (C _ _ Gy) as (oy' & Gy' & Ky' & _). exists oy', op', a', b'. split; auto. split; auto. congruence. }
  assert (Pn : forall z, z = a \/ z = b -> parent h' n z).
  { intros z E. exists on, op, a, b. auto. }
  assert (Hk : forall c y, hooked h c y -> hooked h' c y).
  { intros c y (oc & Gc & Sc & R). destruct (C _ _ Gc) as (oc' & Gc' & Kc' & Wc'). exists oc'. split; auto. rewrite Kc'. split; auto.
    rewrite Wc'. rewrite skipn_app. apply in_app_iff. auto. }
  assert (two : forall c oc, get h c = Some oc -> is_shape (o_kind oc) -> exists u v r, o_watch oc = u :: v :: r).
  { intros c oc Gc Sc. specialize (W c oc Gc). unfold wfx in W. destruct (o_kind oc); try destruct Sc.
    - destruct W as (rest & -> & _). eauto.
    - destruct W as ((rest & -> & _) & _). eauto. }
  assert (Hn : forall c, c = a \/ c = b -> hooked h' c n).
  { intros c E. assert (X : exists oc, get h c = Some oc /\ is_shape (o_kind oc)) by (destruct E as [-> | ->]; eauto).
    destruct X as (oc & Gc & Sc). destruct (C _ _ Gc) as (oc' & Gc' & Kc' & Wc'). exists oc'. split; auto. rewrite Kc'. split; auto.
    rewrite Wc'. destruct (two _ _ Gc Sc) as (u & v & r & ->). simpl. apply in_app_iff. right.
    apply in_app_iff. destruct E as [-> | ->]; rewrite Nat.eqb_refl; simpl; auto. }
  intros x o' G'. destruct (Nat.eq_dec x n) as [->|N].
  - rewrite Gn in G'. injection G' as <-. unfold wfx. rewrite Kn, Wn. split; [exists []; auto|]. repeat split; auto.
  - assert (Lx : (x < length (h_objs h))%nat) by (apply get_lt in G'; lia).
    destruct (get_some _ _ Lx) as [o G]. destruct (C _ _ G) as (o2 & G2 & K & Wt). rewrite G' in G2. injection G2 as <-.
    assert (F : forall rest, Forall (watcher h x) rest -> Forall (watcher h' x) rest).
    { intro rest. apply Forall_impl. intros w (y & E & Q). exists y. auto. }
    assert (Fn : forall c, c = a \/ c = b -> Forall (watcher h' x) (if Nat.eqb x c then [HMat n; HCsgBox n] else [])).
    { intros c Ec. destruct (Nat.eqb_spec x c) as [->|]; auto. repeat constructor; exists n; auto. }
    assert (Fn2 : Forall (watcher h' x) ((if Nat.eqb x a then [HMat n; HCsgBox n] else []) ++ (if Nat.eqb x b then [HMat n; HCsgBox n] else []))).
    { apply Forall_app. auto. }
    assert (NotShape : ~ is_shape (o_kind o) -> o_watch o' = o_watch o).
    { intro Ns. rewrite Wt. destruct (Nat.eqb_spec x a) as [->|]; [rewrite Ga in G; congruence|].
      destruct (Nat.eqb_spec x b) as [->|]; [rewrite Gb in G; congruence|]. rewrite app_nil_r; auto. }
    specialize (W x o G). unfold wfx in *. rewrite K. destruct (o_kind o) eqn:Ko.
    + rewrite NotShape; auto.
    + destruct W as (rest & E & A). rewrite Wt, E. simpl. eexists. split; [reflexivity|]. apply Forall_app. auto.
    + destruct W as ((rest & E & A) & B & D & H1 & H2). split; [|auto]. rewrite Wt, E. simpl. eexists. split; [reflexivity|]. apply Forall_app. auto.
    + rewrite NotShape; auto.
Qed.

Lemma wf_run_call : forall asort c h h', wf h -> run_call asort c h = Ok h' -> wf h'.
Proof.
  intros asort c h h' W H. destruct c as [|p m|ms|g ms|op a b|l o|l|l]; cbn [run_call] in H.
  - injection H as <-. apply wf_alloc; auto.
  - eapply wf_new_surface; eauto.
  - unfold new_group in H. destruct (valid_locs h ms); [|discriminate]. injection H as <-. apply wf_alloc; auto.
  - eapply wf_group_set; eauto.
  - eapply wf_new_csg; eauto.
  - unfold apply_motion in H. destruct (motion_matrix o); [|discriminate].
    eapply wf_kws; [apply sks_kws, (transform_sks asort (depth h) l m); rewrite H; reflexivity|auto].
  - eapply wf_kws; [apply (set_normals_kws (depth h) (-1) l); rewrite H; reflexivity|auto].
  - eapply wf_kws; [apply (set_normals_kws (depth h) 1 l); rewrite H; reflexivity|auto].
Qed.
Lemma wf_run_prog : forall asort cs h h', wf h -> run_prog asort cs h = Ok h' -> wf h'.
Proof.
  intros asort cs. induction cs as [|c cs IH]; intros h h' A H.
  - injection H as <-. auto.
  - simpl in H. destruct (run_call asort c h) as [h1|e h1|] eqn:E; try discriminate. apply (IH h1); auto.
    eapply wf_run_call; eauto.
Qed.
Lemma wf_empty : wf empty_heap.
Proof. intros [|x] o G; discriminate. Qed.

(** ** CSG trees in the heap *)
Inductive tree (h : heap) : loc -> list loc -> Prop :=
| tree_leaf : forall l o p m, get h l = Some o -> o_kind o = KSurf p m -> tree h l [l]
| tree_node : forall l o op a b pa pb, get h l = Some o -> o_kind o = KCsg op a b ->
    tree h a pa -> tree h b pb -> tree h l (l :: pa ++ pb).

Lemma wf_tree : forall h, wf h -> forall n l o, (l < n)%nat -> get h l = Some o -> is_shape (o_kind o) ->
  tree h l (parts_upto n h l).
Proof.
  intros h W. induction n as [|n IH]; intros l o L G S; [lia|]. simpl. rewrite G.
  destruct (o_kind o) as [|p m|op a b|ms] eqn:K; try destruct S; simpl.
  - eapply tree_leaf; eauto.
  - rewrite app_nil_r. pose proof (W l o G) as X. unfold wfx in X. rewrite K in X.
    destruct X as (_ & La & Lb & (oa & Ga & Sa & _) & (ob & Gb & Sb & _)).
    eapply tree_node; eauto; eapply IH; eauto; lia.
Qed.
Lemma tree_self : forall h l ps, tree h l ps -> In l ps.
Proof. intros h l ps []; simpl; auto. Qed.
Lemma tree_closed : forall h l ps, tree h l ps -> forall y x, In y ps -> parent h y x -> In x ps.
Proof.
  intros h l ps T. induction T as [l o p m G K|l o op a b pa pb G K Ta IHa Tb IHb]; intros y x Iy P.
  - destruct Iy as [<-|[]]. destruct P as (oy & op & a & b & Gy & Ky & E). rewrite G in Gy. injection Gy as <-. congruence.
  - destruct Iy as [<-|Iy].
    + destruct P as (oy & op' & a' & b' & Gy & Ky & E). rewrite G in Gy. injection Gy as <-. rewrite K in Ky. injection Ky as <- <- <-.
      right. apply in_app_iff. destruct E as [-> | ->]; [left|right]; eapply tree_self; eauto.
    + right. apply in_app_iff in Iy. apply in_app_iff. destruct Iy; eauto.
Qed.
Lemma tree_kws : forall h h' l ps, kws h h' -> tree h l ps -> tree h' l ps.
Proof.
  intros h h' l ps S T. induction T as [l o p m G K|l o op a b pa pb G K Ta IHa Tb IHb];
    destruct S as (_ & _ & C); destruct (C _ _ G) as (o' & G' & [K' _]).
  - eapply (tree_leaf _ _ o'); [exact G'|rewrite K'; exact K].
  - eapply (tree_node _ _ o'); [exact G'|rewrite K'; exact K|auto|auto].
Qed.

(** boxes *)
Lemma box_of_eq : forall h h' x o o', get h x = Some o -> get h' x = Some o' -> o_kind o' = o_kind o -> o_box o' = o_box o ->
  box_of h' x = box_of h x.
Proof. intros h h' x o o' G G' K B. unfold box_of. rewrite G, G', K, B. auto. Qed.
Lemma box_of_none : forall P h h' x, hrel P h h' -> get h x = None -> box_of h' x = box_of h x.
Proof.
  intros P h h' x R G. unfold box_of. rewrite G. destruct (get h' x) as [o'|] eqn:G'; auto.
  destruct (hrel_get_back _ _ _ _ _ R G') as (o & G2 & _). congruence.
Qed.
Lemma run_all_box : forall asort ws h h' x, run_all asort ws h = Ok h' -> ~ In (HLeafBox x) ws -> ~ In (HCsgBox x) ws ->
  box_of h' x = box_of h x.
Proof.
  intros asort ws h h' x H N1 N2. apply run_all_step in H. destruct (get h x) as [o|] eqn:G.
  - destruct H as (_ & _ & C). destruct (C _ _ G) as (o' & G' & (S & _ & _ & _ & [E|[E|E]] & _)); try contradiction.
    destruct S as (_ & K & _). eapply box_of_eq; eauto.
  - eapply box_of_none; eauto.
Qed.
Lemma upd_world_box : forall h l m x, box_of (upd h l (with_world m)) x = box_of h x.
Proof.
  intros. unfold box_of. rewrite get_upd. destruct (x =? l); auto. destruct (get h x) as [o|]; auto.
Qed.
Lemma watch_leaf : forall h x o y, wf h -> get h x = Some o -> In (HLeafBox y) (o_watch o) -> y = x.
Proof.
  intros h x o y W G I. specialize (W x o G). unfold wfx in W.
  assert (N : forall rest, Forall (watcher h x) rest -> In (HLeafBox y) rest -> False).
  { intros rest F J. rewrite Forall_forall in F. destruct (F _ J) as (z & [E|E] & _); discriminate. }
  destruct (o_kind o).
  - rewrite W in I. destruct I as [E|[]]; discriminate.
  - destruct W as (rest & E & F). rewrite E in I. destruct I as [I|[I|I]]; try congruence. exfalso; eauto.
  - destruct W as ((rest & E & F) & _). rewrite E in I. destruct I as [I|[I|I]]; try congruence. exfalso; eauto.
  - rewrite W in I. destruct I as [E|[]]; discriminate.
Qed.
Lemma watch_csg : forall h x o y, wf h -> get h x = Some o -> In (HCsgBox y) (o_watch o) -> y = x \/ parent h y x.
Proof.
  intros h x o y W G I. specialize (W x o G). unfold wfx in W.
  assert (N : forall rest, Forall (watcher h x) rest -> In (HCsgBox y) rest -> parent h y x).
  { intros rest F J. rewrite Forall_forall in F. destruct (F _ J) as (z & [E|E] & P); [discriminate|]. injection E as ->. exact P. }
  destruct (o_kind o).
  - rewrite W in I. destruct I as [E|[]]; discriminate.
  - destruct W as (rest & E & F). rewrite E in I. destruct I as [I|[I|I]]; try discriminate. right; eauto.
  - destruct W as ((rest & E & F) & _). rewrite E in I. destruct I as [I|[I|I]]; try discriminate; [left; congruence|right; eauto].
  - rewrite W in I. destruct I as [E|[]]; discriminate.
Qed.
Lemma append_own_box : forall asort l t h h' x, wf h -> append_own asort l t h = Ok h' -> x <> l -> ~ parent h x l ->
  box_of h' x = box_of h x.
Proof.
  intros asort l t h h' x W H N P. unfold append_own in H. destruct (get h l) as [o|] eqn:G; [|discriminate].
  rewrite (run_all_box _ _ _ _ x H).
  - apply upd_world_box.
  - intro I. apply N. eapply watch_leaf; eauto.
  - intro I. destruct (watch_csg _ _ _ _ W G I); auto.
Qed.
Lemma transform_unfold : forall asort n l t h h' o, transform asort n l t h = Ok h' -> get h l = Some o ->
  exists n' h1, n = S n' /\ append_own asort l t h = Ok h1 /\ each (fun c => transform asort n' c t) (children (o_kind o)) h1 = Ok h'.
Proof.
  intros asort [|n] l t h h' o H G; [discriminate|]. simpl in H. rewrite G in H.
  destruct (append_own asort l t h) as [h1|e h1|] eqn:E; try discriminate. eauto.
Qed.
Lemma each_two : forall f a b h h', each f [a; b] h = Ok h' -> exists h1, f a h = Ok h1 /\ f b h1 = Ok h'.
Proof.
  intros f a b h h' H. simpl in H. destruct (f a h) as [h1|e h1|]; try discriminate. exists h1. split; auto.
  simpl in H. destruct (f b h1); try discriminate. auto.
Qed.

Lemma tree_transform_box : forall h0 l ps, tree h0 l ps -> forall asort n t h h', sks h0 h -> wf h ->
  transform asort n l t h = Ok h' ->
  forall x, ~ In x ps -> (forall c, In c ps -> ~ parent h x c) -> box_of h' x = box_of h x.
Proof.
  intros h0 l ps T. induction T as [l o p m G K|l o op a b pa pb G K Ta IHa Tb IHb]; intros asort n t h h' S W H x Nx Px.
  - destruct (proj2 (proj2 S) _ _ G) as (o' & G' & (_ & K' & _)). rewrite K in K'.
    destruct (transform_unfold _ _ _ _ _ _ _ H G') as (n' & h1 & -> & E & Ch). rewrite K' in Ch. injection Ch as <-.
    eapply append_own_box; eauto; [intros ->; apply Nx; left; auto|apply Px; left; auto].
  - destruct (proj2 (proj2 S) _ _ G) as (o' & G' & (_ & K' & _)). rewrite K in K'.
    destruct (transform_unfold _ _ _ _ _ _ _ H G') as (n' & h1 & -> & E & Ch). rewrite K' in Ch.
    apply each_two in Ch. destruct Ch as (h2 & Ea & Eb).
    assert (S1 : sks h h1) by (apply (append_own_sks asort l t); rewrite E; auto).
    assert (S2 : sks h1 h2) by (apply (transform_sks asort n' a t); rewrite Ea; auto).
    pose proof (wf_kws _ _ (sks_kws _ _ S1) W) as W1. pose proof (wf_kws _ _ (sks_kws _ _ S2) W1) as W2.
    rewrite (IHb asort n' t h2 h' (sks_trans _ _ _ (sks_trans _ _ _ S S1) S2) W2 Eb x).
    + rewrite (IHa asort n' t h1 h2 (sks_trans _ _ _ S S1) W1 Ea x).
      * eapply append_own_box; eauto; [intros ->; apply Nx; left; auto|apply Px; left; auto].
      * intro I. apply Nx. right. apply in_app_iff; auto.
      * intros c I P. apply (Px c); [right; apply in_app_iff; auto|]. eapply parent_kws_back; [apply sks_kws, S1|auto].
    + intro I. apply Nx. right. apply in_app_iff; auto.
    + intros c I P. apply (Px c); [right; apply in_app_iff; auto|].
      eapply parent_kws_back; [apply sks_kws, S1|]. eapply parent_kws_back; [apply sks_kws, S2|auto].
Qed.

(** the last update of a CSG box in a watchlist *)
Lemma run_all_current : forall asort ws h h' y oy op a b, run_all asort ws h = Ok h' -> In (HCsgBox y) ws ->
  get h y = Some oy -> o_kind oy = KCsg op a b -> ~ In (HLeafBox y) ws ->
  ~ In (HLeafBox a) ws -> ~ In (HCsgBox a) ws ->
  (op = DIFFERENCE \/ ~ In (HLeafBox b) ws /\ ~ In (HCsgBox b) ws) -> box_current asort h' y.
Proof.
  intros asort ws. induction ws as [|w ws IH]; intros h h' y oy op a b H I G K Ny N1 N2 N3; [destruct I|].
  simpl in H. destruct (run_handler asort w h) as [h1|e h1|] eqn:R; try discriminate. simpl in H.
  apply run_handler_step in R. destruct (proj2 (proj2 R) _ _ G) as (oy1 & G1 & St).
  pose proof St as ((_ & K1 & _) & _). rewrite K in K1.
  destruct (in_dec (fun u v : handler => ltac:(decide equality; apply Nat.eq_dec)) (HCsgBox y) ws) as [J|J].
  - refine (IH _ _ _ _ _ _ _ H J G1 K1 _ _ _ _); simpl in *; try tauto.
  - destruct I as [->|I]; [|contradiction].
    destruct St as (_ & _ & _ & _ & _ & _ & St). destruct (St eq_refl) as (op' & a' & b' & ba & bb & K' & Ba & Bb & Box).
    rewrite K in K'. injection K' as <- <- <-.
    pose proof (run_all_step _ _ _ _ H) as R2. destruct (proj2 (proj2 R2) _ _ G1) as (oy2 & G2 & St2).
    destruct St2 as ((_ & K2 & _) & _ & _ & _ & Bx & _). rewrite K1 in K2.
    assert (E2 : o_box oy2 = o_box oy1) by (destruct Bx as [Bx|[Bx|Bx]]; auto; exfalso; simpl in Ny; tauto).
    assert (same : forall x, x <> y -> ~ In (HLeafBox x) ws -> ~ In (HCsgBox x) ws -> box_of h' x = box_of h x).
    { intros x Nx A B. rewrite (run_all_box _ _ _ _ x H A B). destruct (get h x) as [ox|] eqn:Gx.
      - destruct (proj2 (proj2 R) _ _ Gx) as (ox1 & Gx1 & ((_ & Kx & _) & _ & _ & _ & [Bxx|[Bxx|Bxx]] & _)); try congruence.
        eapply box_of_eq; eauto.
      - eapply box_of_none; eauto. }
    intros o' op'' a'' b'' G' K''. rewrite G2 in G'. injection G' as <-. rewrite K2 in K''. injection K'' as <- <- <-.
    assert (Ba' : box_of h' a = Some ba).
    { rewrite same; auto; simpl in N1, N2; try tauto. intros ->. simpl in N2. tauto. }
    destruct N3 as [->|[N3 N4]].
    + assert (exists bb', box_of h' b = Some bb') as (bb' & Bb').
      { unfold box_of in Bb |- *. destruct (get h b) as [ob|] eqn:Gb; [|discriminate].
        destruct (proj2 (proj2 R) _ _ Gb) as (ob1 & Gb1 & ((_ & Kb1 & _) & _)).
        destruct (proj2 (proj2 R2) _ _ Gb1) as (ob2 & Gb2 & ((_ & Kb2 & _) & _)). rewrite Gb2, Kb2, Kb1.
        destruct (o_kind ob); try discriminate; eauto. }
      exists ba, bb'. split; auto. split; auto. rewrite E2, Box. reflexivity.
    + exists ba, bb. split; auto. split; [|congruence].
      rewrite same; auto; simpl in N3, N4; try tauto. intros ->. simpl in N4. tauto.
Qed.

Lemma box_of_current : forall asort h h' y, (box_current asort h y) ->
  (forall oy op a b, get h y = Some oy -> o_kind oy = KCsg op a b ->
     box_of h' y = box_of h y /\ box_of h' a = box_of h a /\ (op = DIFFERENCE /\ (exists b', box_of h' b = Some b') \/ box_of h' b = box_of h b)) ->
  kws h h' -> box_current asort h' y.
Proof.
  intros asort h h' y C H S o' op a b G' K'. destruct (hrel_get_back _ _ _ _ _ S G') as (o & G & [K _]).
  rewrite K' in K. symmetry in K. destruct (H _ _ _ _ G K) as (By & Ba & Bb). destruct (C _ _ _ _ G K) as (ba & bb & A1 & A2 & A3).
  unfold box_of in By. rewrite G, G', K, K' in By. injection By as By.
  destruct Bb as [[-> (b' & Bb)]|Bb].
  - exists ba, b'. rewrite Ba, By. auto.
  - exists ba, bb. rewrite Ba, Bb, By. auto.
Qed.

Definition simple_at (h : heap) (ps : list loc) : Prop :=
  forall x o op a b, In x ps -> get h x = Some o -> o_kind o = KCsg op a b ->
  op = DIFFERENCE \/ exists ob p m, get h b = Some ob /\ o_kind ob = KSurf p m.

Lemma box_of_shape : forall h h' x bx, kws h h' -> box_of h x = Some bx -> exists b', box_of h' x = Some b'.
Proof.
  intros h h' x bx S B. unfold box_of in *. destruct (get h x) as [o|] eqn:G; [|discriminate].
  destruct (proj2 (proj2 S) _ _ G) as (o' & -> & [-> _]). destruct (o_kind o); try discriminate; eauto.
Qed.
Lemma NoDup_app_inv : forall A (l l' : list A), NoDup (l ++ l') -> NoDup l /\ NoDup l' /\ forall x, In x l -> In x l' -> False.
Proof.
  induction l as [|a l IH]; intros l' H; simpl in *.
  - repeat split; auto. constructor.
  - inversion H as [|? ? N D]; subst. destruct (IH _ D) as (A1 & A2 & A3). repeat split; auto.
    + constructor; auto. intro I. apply N, in_app_iff; auto.
    + intros x [->|I] J; [apply N, in_app_iff; auto|eauto].
Qed.

Lemma tree_transform_current : forall h0 l ps, tree h0 l ps -> NoDup ps -> simple_at h0 ps ->
  forall asort n t h h', sks h0 h -> wf h -> transform asort n l t h = Ok h' ->
  forall x, In x ps -> box_current asort h' x.
Proof.
  intros h0 l ps T. induction T as [l o p m G K|l o op a b pa pb G K Ta IHa Tb IHb]; intros ND Sm asort n t h h' S W H x Ix.
  - destruct Ix as [<-|[]]. intros o1 op a b G1 K1. exfalso.
    assert (S2 : sks h h') by (apply (transform_sks asort n l t); rewrite H; auto).
    pose proof (sks_trans _ _ _ S S2) as S3. destruct (proj2 (proj2 S3) _ _ G) as (o' & G' & (_ & K' & _)). congruence.
  - destruct (proj2 (proj2 S) _ _ G) as (o' & G' & (_ & K' & _)). rewrite K in K'.
    destruct (transform_unfold _ _ _ _ _ _ _ H G') as (n' & h1 & -> & E & Ch). rewrite K' in Ch.
    apply each_two in Ch. destruct Ch as (h2 & Ea & Eb).
    assert (S1 : sks h h1) by (apply (append_own_sks asort l t); rewrite E; auto).
    assert (S2 : sks h1 h2) by (apply (transform_sks asort n' a t); rewrite Ea; auto).
    assert (S3 : sks h2 h') by (apply (transform_sks asort n' b t); rewrite Eb; auto).
    pose proof (wf_kws _ _ (sks_kws _ _ S1) W) as W1. pose proof (wf_kws _ _ (sks_kws _ _ S2) W1) as W2.
    pose proof (sks_trans _ _ _ S S1) as S01. pose proof (sks_trans _ _ _ S01 S2) as S02.
    inversion ND as [|? ? Nl NDab]; subst. apply NoDup_app_inv in NDab. destruct NDab as (NDa & NDb & Dis).
    assert (Sma : simple_at h0 pa) by (intros y oy opy ay by' Iy; apply Sm; right; apply in_app_iff; auto).
    assert (Smb : simple_at h0 pb) by (intros y oy opy ay by' Iy; apply Sm; right; apply in_app_iff; auto).
    assert (P02 : forall y z, parent h2 y z -> parent h0 y z) by (intros y z; apply parent_kws_back, sks_kws, S02).
    assert (Pl : forall c, parent h0 l c -> c = a \/ c = b).
    { intros c (oy & op' & a' & b' & Gy & Ky & Ec). rewrite G in Gy. injection Gy as <-. rewrite K in Ky. injection Ky as <- <- <-. auto. }
    pose proof (tree_self _ _ _ Ta) as Iaa. pose proof (tree_self _ _ _ Tb) as Ibb.
    destruct Ix as [<-|Ix].
    + (* the root *)
      destruct (proj2 (proj2 S02) _ _ G) as (ol2 & Gl2 & (_ & Kl2 & _)). rewrite K in Kl2.
      pose proof (W2 l ol2 Gl2) as Wl. unfold wfx in Wl. rewrite Kl2 in Wl. destruct Wl as (_ & La & Lb & _ & (ob & Gb & Sb & Hb)).
      destruct (transform_unfold _ _ _ _ _ _ _ Eb Gb) as (n2 & h3 & -> & Eb1 & Ebc).
      assert (S23 : sks h2 h3) by (apply (append_own_sks asort b t); rewrite Eb1; auto).
      assert (Apb : forall y, In y pa -> ~ parent h2 y b).
      { intros y Iy P. apply (Dis b); auto. eapply tree_closed; [exact Ta|exact Iy|]. apply P02; auto. }
      assert (Cur : box_current asort h3 l).
      { pose proof Eb1 as Eb2. unfold append_own in Eb2. rewrite Gb in Eb2.
        set (hb := upd h2 b (with_world (mmul t (o_world ob)))) in *.
        assert (Gl3 : get hb l = Some ol2) by (unfold hb; rewrite get_upd_other by lia; auto).
        assert (Nla : ~ In (HLeafBox a) (o_watch ob)).
        { intro I. apply (watch_leaf _ _ _ _ W2 Gb) in I. subst. apply (Dis b); auto. }
        assert (Nca : ~ In (HCsgBox a) (o_watch ob)).
        { intro I. apply (watch_csg _ _ _ _ W2 Gb) in I. destruct I as [->|P]; [apply (Dis b); auto|]. apply (Apb a); auto. }
        assert (Nll : ~ In (HLeafBox l) (o_watch ob)).
        { intro I. apply (watch_leaf _ _ _ _ W2 Gb) in I. lia. }
        destruct (Sm l o op a b (or_introl eq_refl) G K) as [->|(ob0 & p & m & Gb0 & Kb0)].
        - refine (run_all_current _ _ _ _ _ _ _ _ _ Eb2 _ Gl3 Kl2 Nll Nla Nca (or_introl eq_refl)).
          rewrite <- (firstn_skipn 2 (o_watch ob)). apply in_app_iff; auto.
        - destruct (proj2 (proj2 S02) _ _ Gb0) as (ob' & Gb' & (_ & Kb' & _)). rewrite Gb in Gb'. injection Gb' as <-.
          pose proof (W2 b ob Gb) as Wb. unfold wfx in Wb. rewrite Kb', Kb0 in Wb. destruct Wb as (rest & Ew & Fw).
          rewrite Ew in *. simpl in Hb. simpl run_all in Eb2.
          destruct (run_handler asort (HMat b) hb) as [hc|e hc|] eqn:R1; simpl in R1; rewrite R1 in Eb2; try discriminate. cbn [bind] in Eb2.
          change (match get hc b with Some o => _ | None => _ end) with (run_handler asort (HLeafBox b) hc) in Eb2.
          destruct (run_handler asort (HLeafBox b) hc) as [hd|e hd|] eqn:R2; try discriminate. cbn [bind] in Eb2.
          assert (Skd : sks hb hd).
          { eapply sks_trans; [apply wsk_sks, (run_handler_wsk asort (HMat b)); simpl; rewrite R1; reflexivity|].
            apply wsk_sks, (run_handler_wsk asort (HLeafBox b)). rewrite R2. reflexivity. }
          destruct (proj2 (proj2 Skd) _ _ Gl3) as (ol3 & Gl4 & (_ & Kl4 & _)). rewrite Kl2 in Kl4.
          simpl in Nla, Nca, Nll.
          refine (run_all_current _ _ _ _ _ _ _ _ _ Eb2 Hb Gl4 Kl4 _ _ _ (or_intror (conj _ _))); try tauto.
          + intro I. rewrite Forall_forall in Fw. destruct (Fw _ I) as (z & [Ez|Ez] & _); discriminate.
          + intro I. rewrite Forall_forall in Fw. destruct (Fw _ I) as (z & [Ez|Ez] & P); [discriminate|].
            injection Ez as <-. destruct P as (ob1 & op1 & a1 & b1 & Gb1 & Kb1 & _). congruence. }
      destruct (o_kind ob) as [|p m|opb ab bb|ms] eqn:Kob; try destruct Sb.
      * injection Ebc as <-. auto.
      * (* b is a CSG node: only for a difference *)
        apply each_two in Ebc. destruct Ebc as (h4 & Eb3 & Eb4).
        assert (S34 : sks h3 h4) by (apply (transform_sks asort n2 ab t); rewrite Eb3; auto).
        assert (S45 : sks h4 h') by (apply (transform_sks asort n2 bb t); rewrite Eb4; auto).
        destruct (Sm l o op a b (or_introl eq_refl) G K) as [->|(ob0 & p & m & Gb0 & Kb0)];
          [|destruct (proj2 (proj2 S02) _ _ Gb0) as (ob' & Gb' & (_ & Kb' & _)); rewrite Gb in Gb'; injection Gb' as <-; congruence].
        pose proof (wf_kws _ _ (sks_kws _ _ S23) W2) as W3. pose proof (wf_kws _ _ (sks_kws _ _ S34) W3) as W4.
        inversion Tb as [? ob' p m Gb' Kb'|? ob' op' a' b' qa qb Gb' Kb' Tqa Tqb]; subst.
        { destruct (proj2 (proj2 S02) _ _ Gb') as (ob2 & Gb2 & (_ & Kb2 & _)). rewrite Gb in Gb2. injection Gb2 as <-. congruence. }
        destruct (proj2 (proj2 S02) _ _ Gb') as (ob2 & Gb2 & (_ & Kb2 & _)). rewrite Gb in Gb2. injection Gb2 as <-.
        rewrite Kob, Kb' in Kb2. injection Kb2 as <- <- <-.
        inversion NDb as [|? ? Nb NDb']; subst.
        assert (Px : forall y, In y pa \/ y = l -> forall c, In c (qa ++ qb) -> ~ parent h0 y c).
        { intros y [Iy| ->] c Ic P.
          - apply (Dis c); [|right; auto]. eapply tree_closed; [exact Ta|exact Iy|exact P].
          - destruct (Pl _ P) as [->| ->]; [apply (Dis a); [auto|right; auto]|auto]. }
        assert (Nx : forall y, In y pa \/ y = l -> ~ In y (qa ++ qb)).
        { intros y [Iy| ->] I; [apply (Dis y); [auto|right; auto]|]. apply Nl, in_app_iff. right; right; auto. }
        assert (Bx : forall y, In y pa \/ y = l -> box_of h' y = box_of h3 y).
        { intros y Iy.
          rewrite (tree_transform_box _ _ _ Tqb asort n2 t h4 h' (sks_trans _ _ _ (sks_trans _ _ _ S02 S23) S34) W4 Eb4 y).
          - apply (tree_transform_box _ _ _ Tqa asort n2 t h3 h4 (sks_trans _ _ _ S02 S23) W3 Eb3 y).
            + intro I. apply (Nx y Iy), in_app_iff; auto.
            + intros c Ic P. apply (Px y Iy c); [apply in_app_iff; auto|]. eapply parent_kws_back; [|exact P].
              apply sks_kws. exact (sks_trans _ _ _ S02 S23).
          - intro I. apply (Nx y Iy), in_app_iff; auto.
          - intros c Ic P. apply (Px y Iy c); [apply in_app_iff; auto|]. eapply parent_kws_back; [|exact P].
            apply sks_kws. exact (sks_trans _ _ _ (sks_trans _ _ _ S02 S23) S34). }
        pose proof (sks_kws _ _ (sks_trans _ _ _ S34 S45)) as S35.
        eapply box_of_current; [exact Cur| |exact S35].
        intros oy op3 a3 b3 Gy Ky. destruct (hrel_get_back _ _ _ _ _ (sks_trans _ _ _ S02 S23) Gy) as (o3 & G3 & (_ & K3 & _)).
        rewrite G in G3. injection G3 as <-. rewrite K, Ky in K3. injection K3 as -> -> ->.
        split; [apply Bx; auto|]. split; [apply Bx; auto|]. left. split; auto.
        destruct (Cur _ _ _ _ Gy Ky) as (? & b1 & _ & Bb1 & _). eapply box_of_shape; eauto.
    + apply in_app_iff in Ix. destruct Ix as [Ix|Ix].
      * (* in the left operand: the right one does not disturb it *)
        pose proof (IHa NDa Sma asort n' t h1 h2 S01 W1 Ea x Ix) as Cur.
        assert (Bx : forall y, In y pa -> box_of h' y = box_of h2 y).
        { intros y Iy. apply (tree_transform_box _ _ _ Tb asort n' t h2 h' S02 W2 Eb y).
          - intro I. apply (Dis y); auto.
          - intros c Ic P. apply (Dis c); auto. eapply tree_closed; [exact Ta|exact Iy|]. apply P02; auto. }
        eapply box_of_current; [exact Cur| |apply sks_kws, S3].
        intros oy op' a' b' Gy Ky. destruct (hrel_get_back _ _ _ _ _ S02 Gy) as (o1 & G1 & (_ & K1 & _)). rewrite Ky in K1.
        assert (Ia' : In a' pa) by (eapply tree_closed; [exact Ta|exact Ix|]; exists o1, op', a', b'; auto).
        assert (Ib' : In b' pa) by (eapply tree_closed; [exact Ta|exact Ix|]; exists o1, op', a', b'; auto).
        split; [auto|]. split; [auto|]. right; auto.
      * apply (IHb NDb Smb asort n' t h2 h' S02 W2 Eb x Ix).
Qed.
