(** * WorldFacts4: boxes of moved CSG objects, normals, pin, composition *)
From Coq Require Import Reals List Bool ZArith Lra Lia.
Import ListNotations.
From Verif Require Import XR XRFacts Arr Lin LinFacts Prim Csg Surf SpecGeom SpecTree World SpecWorld WorldFacts WorldFacts2 WorldFacts3 CsgProps.
Open Scope R_scope.

(** ** reading a shape out of the heap *)
Lemma shape_exists : forall h, wf h -> forall n l o, (l < n)%nat -> get h l = Some o -> is_shape (o_kind o) ->
  exists s, shape_fuel n h l = Some s.
Proof.
  intros h W. induction n as [|n IH]; intros l o L G S; [lia|]. simpl. rewrite G.
  destruct (o_kind o) as [|p m|op a b|ms] eqn:K; try destruct S; eauto.
  pose proof (W l o G) as X. unfold wfx in X. rewrite K in X.
  destruct X as (_ & La & Lb & (oa & Ga & Sa & _) & (ob & Gb & Sb & _)).
  destruct (IH a oa) as (sa & ->); auto; [lia|]. destruct (IH b ob) as (sb & ->); auto; [lia|]. eauto.
Qed.
Lemma shape_box_of : forall n h l s, shape_fuel n h l = Some s -> box_of h l = Some (shape_box s).
Proof.
  intros [|n] h l s H; [discriminate|]. simpl in H. unfold box_of. destruct (get h l) as [o|]; [|discriminate].
  destruct (o_kind o); try discriminate.
  - injection H as <-. auto.
  - destruct (shape_fuel n h l0); [|discriminate]. destruct (shape_fuel n h r); [|discriminate]. injection H as <-. auto.
Qed.
Lemma shape_boxes_current : forall asort, argsort_ok asort -> forall h, all_good h -> forall n l s, shape_fuel n h l = Some s ->
  (forall x, In x (parts_upto n h l) -> box_current asort h x) -> boxes_current s.
Proof.
  intros asort AS h A n. induction n as [|n IH]; intros l s H C; [discriminate|]. simpl in H, C.
  destruct (get h l) as [o|] eqn:G; [|discriminate]. destruct (o_kind o) as [|p m|op a b|ms] eqn:K; try discriminate.
  - injection H as <-. simpl. destruct (A _ _ G) as (_ & _ & B). unfold boxc in B. rewrite K in B. auto.
  - destruct (shape_fuel n h a) as [sa|] eqn:Ea; [|discriminate]. destruct (shape_fuel n h b) as [sb|] eqn:Eb; [|discriminate].
    injection H as <-. simpl in C |- *. rewrite app_nil_r in C. split; [apply (IH a); auto; intros; apply C; right; apply in_app_iff; auto|].
    split; [apply (IH b); auto; intros; apply C; right; apply in_app_iff; auto|].
    exists asort. split; auto. destruct (C l (or_introl eq_refl) o op a b G K) as (ba & bb & Ba & Bb & E).
    rewrite (shape_box_of _ _ _ _ Ea) in Ba. rewrite (shape_box_of _ _ _ _ Eb) in Bb. congruence.
Qed.
Lemma moved_tree_current : forall asort cs h l o m h', argsort_ok asort -> run_prog asort cs empty_heap = Ok h ->
  get h l = Some o -> is_shape (o_kind o) -> NoDup (parts h l) -> right_simple h l -> apply_motion asort l m h = Ok h' ->
  exists s, shape_of h' l = Some s /\ boxes_current s.
Proof.
  intros asort cs h l o m h' AS H G S ND RS M. unfold apply_motion in M. destruct (motion_matrix m) as [t|]; [|discriminate].
  pose proof (wf_run_prog _ _ _ _ wf_empty H) as W. pose proof (run_prog_good _ _ _ _ empty_good H) as A.
  assert (Sk : sks h h') by (apply (transform_sks asort (depth h) l t); rewrite M; auto).
  pose proof (wf_kws _ _ (sks_kws _ _ Sk) W) as W'. pose proof (transform_good _ _ _ _ _ _ A M) as A'.
  destruct (proj2 (proj2 Sk) _ _ G) as (o' & G' & (_ & K' & _)).
  destruct (shape_exists h' W' (depth h') l o') as (s & Es); [eapply get_depth; eauto|auto|rewrite K'; auto|].
  exists s. split; [exact Es|]. eapply (shape_boxes_current asort AS h' A'); [exact Es|].
  intros x I. change (parts_upto (depth h') h' l) with (parts h' l) in I. rewrite (parts_sks h h' l Sk) in I.
  refine (tree_transform_current h l (parts h l) _ ND RS asort (depth h) t h h' (sks_refl h) W M x I).
  apply (wf_tree h W (depth h) l o); auto. eapply get_depth; eauto.
Qed.
Lemma new_csg_current : forall asort op a b h h', new_csg asort op a b h = Ok h' -> box_current asort h' (fresh h).
Proof.
  intros asort op a b h h' H. pose proof (new_csg_shape _ _ _ _ _ _ H) as (La & Lb & _ & _ & _ & _ & (on & Gn & Kn & _) & _).
  unfold new_csg in H. destruct (negb _); [discriminate|]. cbv zeta in H.
  destruct (attach_to a _ _) as [h3|e h3|]; try discriminate. cbn [bind] in H.
  destruct (attach_to b _ _) as [h4|e h4|]; try discriminate. cbn [bind] in H.
  destruct (match op with DIFFERENCE => _ | _ => _ end) as [h5|e h5|]; try discriminate. cbn [bind] in H.
  destruct (run_handler_step _ _ _ _ H) as (_ & _ & C).
  assert (X : exists o5, get h5 (fresh h) = Some o5) by (eapply hrel_get_back in Gn; [destruct Gn as (o5 & G5 & _); eauto|eapply run_handler_step; eauto]).
  destruct X as (o5 & G5). destruct (C _ _ G5) as (on' & Gn' & St). rewrite Gn in Gn'. injection Gn' as <-.
  destruct St as ((_ & K5 & _) & _ & _ & _ & _ & _ & St). destruct (St eq_refl) as (op' & a' & b' & ba & bb & K' & Ba & Bb & Box).
  rewrite Kn, K' in K5. injection K5 as <- <- <-.
  intros o1 op1 a1 b1 G1 K1. rewrite Gn in G1. injection G1 as <-. rewrite Kn in K1. injection K1 as <- <- <-.
  assert (same : forall x, x <> fresh h -> box_of h' x = box_of h5 x).
  { intros x N. destruct (get h5 x) as [ox|] eqn:Gx.
    - destruct (C _ _ Gx) as (ox' & Gx' & ((_ & Kx & _) & _ & _ & _ & [B|[B|B]] & _)); try congruence. eapply box_of_eq; eauto.
    - eapply box_of_none; [eapply run_handler_step; exact H|auto]. }
  exists ba, bb. rewrite !same by lia. auto.
Qed.

(** a surface that is an operand updates the box of the CSG object *)
Lemma moved_operand_current : forall asort cs h y oy op a b c oc p mt m h', run_prog asort cs empty_heap = Ok h ->
  get h y = Some oy -> o_kind oy = KCsg op a b -> NoDup (parts h y) -> c = a \/ c = b ->
  get h c = Some oc -> o_kind oc = KSurf p mt ->
  apply_motion asort c m h = Ok h' -> box_current asort h' y.
Proof.
  intros asort cs h y oy op a b c oc p mt m h' H Gy Ky ND Ec Gc Kc M. unfold apply_motion in M.
  destruct (motion_matrix m) as [t|]; [|discriminate]. pose proof (wf_run_prog _ _ _ _ wf_empty H) as W.
  destruct (transform_unfold _ _ _ _ _ _ _ M Gc) as (n & h1 & _ & E & Ch). rewrite Kc in Ch. injection Ch as <-.
  pose proof (W y oy Gy) as Wy. unfold wfx in Wy. rewrite Ky in Wy. destruct Wy as (_ & La & Lb & Ha & Hb).
  pose proof (W c oc Gc) as Wc. unfold wfx in Wc. rewrite Kc in Wc. destruct Wc as (rest & Ew & Fw).
  assert (Hk : In (HCsgBox y) rest).
  { destruct Ec as [-> | ->]; [destruct Ha as (o1 & G1 & _ & I)|destruct Hb as (o1 & G1 & _ & I)];
      rewrite Gc in G1; injection G1 as <-; rewrite Ew in I; exact I. }
  (* the tree below y *)
  assert (T : tree h y (parts h y)) by (apply (wf_tree h W (depth h) y oy); [eapply get_depth; eauto|auto|rewrite Ky; exact I]).
  set (ps := parts h y) in *. clearbody ps.
  inversion T as [? o1 p1 m1 G1 K1|? o1 op1 a1 b1 pa pb G1 K1 Ta Tb Eq1 Eq2]; subst.
  { rewrite Gy in G1. injection G1 as <-. congruence. }
  rewrite Gy in G1. injection G1 as <-. rewrite Ky in K1. injection K1 as <- <- <-.
  inversion ND as [|? ? Ny NDab]; subst. apply NoDup_app_inv in NDab. destruct NDab as (_ & _ & Dis).
  assert (NP : forall d, d = a \/ d = b -> ~ In (HCsgBox d) rest /\ ~ In (HLeafBox d) rest).
  { intros d Ed. split; intro I; rewrite Forall_forall in Fw; destruct (Fw _ I) as (z & [Ez|Ez] & P); try discriminate.
    injection Ez as <-. pose proof (tree_self _ _ _ Ta) as Ia. pose proof (tree_self _ _ _ Tb) as Ib.
    assert (Cl : forall q qs, tree h q qs -> In d qs -> In c qs) by (intros q qs Tq Id; eapply tree_closed; eauto).
    assert (NS : d <> c). { intros ->. destruct P as (o2 & op2 & a2 & b2 & G2 & K2 & _). congruence. }
    destruct Ec as [-> | ->], Ed as [-> | ->]; try congruence.
    - apply (Dis a); auto. apply (Cl b); auto.
    - apply (Dis b); auto. apply (Cl a); auto. }
  unfold append_own in E. rewrite Gc, Ew in E.
  set (hb := upd h c (with_world (mmul t (o_world oc)))) in *.
  assert (Gy0 : get hb y = Some oy) by (unfold hb; rewrite get_upd_other; [auto|destruct Ec; subst; lia]).
  simpl run_all in E.
  destruct (run_handler asort (HMat c) hb) as [hc|e hc|] eqn:R1; simpl in R1; rewrite R1 in E; try discriminate. cbn [bind] in E.
  change (match get hc c with Some o => _ | None => _ end) with (run_handler asort (HLeafBox c) hc) in E.
  destruct (run_handler asort (HLeafBox c) hc) as [hd|e hd|] eqn:R2; try discriminate. cbn [bind] in E.
  assert (Skd : sks hb hd).
  { eapply sks_trans; [apply wsk_sks, (run_handler_wsk asort (HMat c)); simpl; rewrite R1; reflexivity|].
    apply wsk_sks, (run_handler_wsk asort (HLeafBox c)). rewrite R2. reflexivity. }
  destruct (proj2 (proj2 Skd) _ _ Gy0) as (oy3 & Gy3 & (_ & Ky3 & _)). rewrite Ky in Ky3.
  refine (run_all_current _ _ _ _ _ _ _ _ _ E Hk Gy3 Ky3 _ _ _ (or_intror (conj _ _))); [|apply NP; auto|apply NP; auto|apply NP; auto|apply NP; auto].
  intro I. rewrite Forall_forall in Fw. destruct (Fw _ I) as (z & [Ez|Ez] & P); discriminate.
Qed.

(** ** tree_ok for every program *)
Definition ok_call (c : call) : Prop := match c with CSurface p _ => prim_ok p | _ => affine_call c end.
Definition all_prims (h : heap) : Prop := forall x o p m, get h x = Some o -> o_kind o = KSurf p m -> prim_ok p.
Lemma run_call_prims : forall asort c h h', ok_call c -> all_prims h -> run_call asort c h = Ok h' -> all_prims h'.
Proof.
  assert (EX : forall h h', exts h h' -> all_prims h -> all_prims h').
  { intros h h' E A x o' p m G' K'. destruct (hrel_get_back _ _ _ _ _ E G') as (o & G & (_ & K & _)). rewrite K in K'. eauto. }
  assert (KW : forall h h', kws h h' -> all_prims h -> all_prims h').
  { intros h h' E A x o' p m G' K'. destruct (hrel_get_back _ _ _ _ _ E G') as (o & G & [K _]). rewrite K in K'. eauto. }
  assert (AL : forall k h, all_prims h -> match k with KSurf p _ => prim_ok p | _ => True end -> all_prims (alloc k h)).
  { intros k h A Hk x o p m G K. destruct (get_alloc _ _ _ _ G) as [G1|(-> & ->)]; [eauto|]. cbn [o_kind] in K. subst k. auto. }
  assert (UP : forall h l f, (forall o, o_kind (f o) = o_kind o) -> all_prims h -> all_prims (upd h l f)).
  { intros h l f Hf A x o p m G K. rewrite get_upd in G. destruct (x =? l); [|eauto]. destruct (get h x) as [o1|] eqn:G1; [|discriminate].
    injection G as <-. rewrite Hf in K. eauto. }
  intros asort c h h' N A H. destruct c as [|p m|ms|g ms|op a b|l o|l|l]; cbn [run_call] in H.
  - injection H as <-. apply AL; auto.
  - unfold new_surface in H. destruct (prim_init p); [|discriminate]. injection H as <-. apply UP; [auto|]. apply UP; [auto|]. apply AL; auto.
  - unfold new_group in H. destruct (valid_locs h ms); [|discriminate]. injection H as <-. apply AL; auto.
  - unfold group_set in H. destruct (get h g) as [o|]; [|discriminate]. destruct (o_kind o); try discriminate.
    destruct (valid_locs h ms); [|discriminate]. injection H as <-. intros x o' p m G K. rewrite get_upd in G. destruct (x =? g); [|eauto].
    destruct (get h x); [|discriminate]. injection G as <-. discriminate.
  - destruct (new_csg_exts asort op a b h h') as [->|X]; [rewrite H; auto|auto|]. apply (EX _ _ X). unfold csg_start. apply UP; auto.
  - unfold apply_motion in H. destruct (motion_matrix o) as [t|]; [|discriminate].
    apply (KW h); auto. apply sks_kws, (transform_sks asort (depth h) l t). rewrite H; auto.
  - apply (EX h); auto. apply (set_normals_exts (depth h) (-1) l). rewrite H; auto.
  - apply (EX h); auto. apply (set_normals_exts (depth h) 1 l). rewrite H; auto.
Qed.
Lemma run_prog_prims : forall asort cs h h', Forall ok_call cs -> all_prims h -> run_prog asort cs h = Ok h' -> all_prims h'.
Proof.
  intros asort cs. induction cs as [|c cs IH]; intros h h' F A H.
  - injection H as <-. auto.
  - inversion F; subst. simpl in H. destruct (run_call asort c h) as [h1|e h1|] eqn:E; try discriminate. apply (IH h1); auto.
    eapply run_call_prims; eauto.
Qed.
Lemma ok_affine : forall cs, Forall ok_call cs -> Forall affine_call cs.
Proof. intro cs. apply Forall_impl. intros []; simpl; auto. Qed.
Lemma prog_tree_ok : forall asort cs h l s, Forall ok_call cs -> run_prog asort cs empty_heap = Ok h -> shape_of h l = Some s -> tree_ok s.
Proof.
  intros asort cs h l s F H. unfold shape_of. generalize (depth h). intro n.
  pose proof (run_prog_good _ _ _ _ empty_good H) as A. pose proof (run_prog_affine _ _ _ _ (ok_affine _ F) empty_affine H) as Af.
  assert (P : all_prims h) by (eapply run_prog_prims; eauto; intros [|x] o p m G; discriminate).
  revert l s. induction n as [|n IH]; intros l s E; [discriminate|]. simpl in E.
  destruct (get h l) as [o|] eqn:G; [|discriminate]. destruct (o_kind o) as [|p m|op a b|ms] eqn:K; try discriminate.
  - injection E as <-. simpl. split; [eauto|]. split; [eauto|]. apply (A _ _ G).
  - destruct (shape_fuel n h a) as [sa|] eqn:Ea; [|discriminate]. destruct (shape_fuel n h b) as [sb|] eqn:Eb; [|discriminate].
    injection E as <-. simpl. eauto.
Qed.

(** ** normals of a freshly built CSG expression *)
Definition nsc (h : heap) (x : loc) : R := match get h x with Some o => o_nscale o | None => 0 end.
Inductive ltree (h : heap) : loc -> list loc -> Prop :=
| lt_leaf : forall l o p m, get h l = Some o -> o_kind o = KSurf p m -> ltree h l [l]
| lt_node : forall l o op a b la lb, get h l = Some o -> o_kind o = KCsg op a b ->
    ltree h a la -> ltree h b lb -> ltree h l (la ++ lb).
Definition same_kinds (h h' : heap) : Prop := forall x o, get h x = Some o -> exists o', get h' x = Some o' /\ o_kind o' = o_kind o.
Lemma ltree_same : forall h h' l ls, same_kinds h h' -> ltree h l ls -> ltree h' l ls.
Proof.
  intros h h' l ls S T. induction T as [l o p m G K|l o op a b la lb G K Ta IHa Tb IHb]; destruct (S _ _ G) as (o' & G' & K').
  - eapply (lt_leaf _ _ o'); [exact G'|rewrite K'; exact K].
  - eapply (lt_node _ _ o'); [exact G'|rewrite K'; exact K|auto|auto].
Qed.
Lemma same_kinds_trans : forall a b c, same_kinds a b -> same_kinds b c -> same_kinds a c.
Proof. intros a b c H K x o G. destruct (H _ _ G) as (o1 & G1 & E1). destruct (K _ _ G1) as (o2 & G2 & E2). exists o2. split; auto. congruence. Qed.
Lemma same_kinds_kws : forall h h', kws h h' -> same_kinds h h'.
Proof. intros h h' (_ & _ & C) x o G. destruct (C _ _ G) as (o' & G' & [K _]). eauto. Qed.

Lemma set_normals_nsc : forall n k l h h' ls, set_normals n k l h = Ok h' -> ltree h l ls ->
  forall x, (In x ls -> nsc h' x = k) /\ (~ In x ls -> nsc h' x = nsc h x).
Proof.
  induction n as [|n IH]; intros k l h h' ls H T x; [discriminate|]. simpl in H.
  inversion T as [? o p m G K|? o op a b la lb G K Ta Tb]; subst; rewrite G, K in H.
  - injection H as <-. unfold nsc. split.
    + intros [<-|[]]. rewrite (get_upd_same _ _ _ _ G). auto.
    + intro N. rewrite get_upd_other; auto. intros ->. apply N. left; auto.
  - destruct (set_normals n k a h) as [h1|e h1|] eqn:E; try discriminate. simpl in H.
    assert (S1 : kws h h1) by (apply (set_normals_kws n k a); rewrite E; auto).
    destruct (IH _ _ _ _ _ E Ta x) as [A1 A2].
    destruct (IH _ _ _ _ _ H (ltree_same _ _ _ _ (same_kinds_kws _ _ S1) Tb) x) as [B1 B2]. split.
    + intro I. apply in_app_iff in I. destruct (in_dec Nat.eq_dec x lb) as [J|J]; auto. rewrite B2 by auto. apply A1. tauto.
    + intro N. rewrite in_app_iff in N. rewrite B2, A2; auto.
Qed.
Lemma nsc_get : forall h h' x, get h' x = get h x -> nsc h' x = nsc h x.
Proof. intros h h' x E. unfold nsc. rewrite E. auto. Qed.

(** what new_csg does to the normals *)
Lemma new_csg_nsc : forall asort op a b h h' lb, new_csg asort op a b h = Ok h' -> ltree h b lb ->
  forall x, (x < length (h_objs h))%nat ->
  nsc h' x = match op with DIFFERENCE => if in_dec Nat.eq_dec x lb then -1 else nsc h x | _ => nsc h x end.
Proof.
  intros asort op a b h h' lb H T x Lx. unfold new_csg in H.
  destruct (valid_locs h [a; b]) eqn:V; [|discriminate]. apply valid_two in V. destruct V as [Va Vb]. simpl negb in H. cbv iota zeta in H.
  set (n := fresh h) in *. set (h2 := upd _ n _) in H. assert (En : n = length (h_objs h)) by reflexivity.
  assert (G2 : forall y, (y < length (h_objs h))%nat -> get h2 y = get h y).
  { intros y L. unfold h2. rewrite get_upd_other by lia. apply get_alloc_old. lia. }
  destruct (attach_to a n h2) as [h3|e h3|] eqn:E3; try discriminate. cbn [bind] in H.
  destruct (attach_to b n h3) as [h4|e h4|] eqn:E4; try discriminate. cbn [bind] in H.
  assert (AT : forall c p g g', attach_to c p g = Ok g' -> (forall y, nsc g' y = nsc g y) /\ same_kinds g g').
  { intros c p g g' E. destruct (attach_ok _ _ _ _ E) as (oc & op' & Gc & _ & _ & ->). split.
    - intro y. unfold nsc. rewrite get_upd. destruct (y =? c) eqn:Ey; auto. apply Nat.eqb_eq in Ey. subst y. rewrite Gc. auto.
    - intros y oy Gy. rewrite get_upd. destruct (y =? c); [rewrite Gy; simpl; eauto|eauto]. }
  destruct (AT _ _ _ _ E3) as [N3 K3]. destruct (AT _ _ _ _ E4) as [N4 K4].
  destruct (match op with DIFFERENCE => _ | _ => _ end) as [h5|e h5|] eqn:E5 in H; try discriminate. cbn [bind] in H.
  assert (N5 : nsc h' x = nsc h5 x).
  { pose proof (run_handler_step _ _ _ _ H) as R. unfold nsc. destruct (get h5 x) as [o5|] eqn:G5.
    - destruct (proj2 (proj2 R) _ _ G5) as (o6 & -> & ((_ & _ & _ & E) & _)). auto.
    - destruct (get h' x) as [o6|] eqn:G6; auto. destruct (hrel_get_back _ _ _ _ _ R G6) as (o & G' & _). congruence. }
  assert (T4 : ltree h4 b lb).
  { apply (ltree_same h2); [eapply same_kinds_trans; eauto|]. apply (ltree_same h); auto. intros y oy Gy. exists oy. split; auto. rewrite G2; auto.
    eapply get_lt; eauto. }
  assert (N2 : nsc h4 x = nsc h x) by (rewrite N4, N3; apply nsc_get; auto).
  rewrite N5. destruct op; try (injection E5 as <-; auto).
  destruct (set_normals_nsc _ _ _ _ _ _ E5 T4 x) as [A B]. destruct (in_dec Nat.eq_dec x lb); auto. rewrite B; auto.
Qed.

Lemma subtractions_S : forall e k, subtractions (S k) e = map S (subtractions k e).
Proof. induction e as [p m|[] a IHa b IHb]; intro k; simpl; rewrite ?map_app, ?IHa, ?IHb; auto. Qed.
Lemma calls_loc : forall e n, (n <= snd (calls e n))%nat.
Proof.
  induction e as [p m|op a IHa b IHb]; intro n; simpl; auto. specialize (IHa n). destruct (calls a n) as [ca la]. simpl in IHa.
  specialize (IHb (S la)). destruct (calls b (S la)) as [cb lb]. simpl in *. lia.
Qed.
Lemma run_prog_app : forall asort cs cs' h, run_prog asort (cs ++ cs') h = bind (run_prog asort cs h) (run_prog asort cs').
Proof. induction cs as [|c cs IH]; intros cs' h; simpl; auto. destruct (run_call asort c h); simpl; auto. Qed.

Definition sign_any (k : nat) : R := if Nat.eqb k 0 then 1 else -1.
Lemma built : forall asort e h h', run_prog asort (fst (calls e (length (h_objs h)))) h = Ok h' ->
  let n := length (h_objs h) in let l := snd (calls e n) in
  length (h_objs h') = S l /\ (forall x o, get h x = Some o -> exists o', get h' x = Some o' /\ o_kind o' = o_kind o) /\
  (forall x, (x < n)%nat -> nsc h' x = nsc h x) /\
  exists ls, ltree h' l ls /\ (forall x, In x ls -> (n <= x <= l)%nat) /\ map (nsc h') ls = map sign_any (subtractions 0 e).
Proof.
  intros asort e. induction e as [p m|op a IHa b IHb]; intros h h' H n l.
  - simpl in H. unfold new_surface in H. destruct (prim_init p); [|discriminate]. injection H as <-. simpl in l. subst l n.
    set (n := length (h_objs h)). set (h' := upd _ _ _).
    assert (Gn : exists o, get h' n = Some o /\ o_kind o = KSurf p m /\ o_nscale o = 1).
    { eexists. split; [unfold h'; change n with (fresh h); rewrite (get_upd_same _ _ _ _ (get_upd_same _ _ _ _ (get_alloc_new (KSurf p m) h))); reflexivity|]. auto. }
    assert (Old : forall x, (x < n)%nat -> get h' x = get h x).
    { intros x L. unfold h'. rewrite !get_upd_other by (unfold fresh; fold n; lia). apply get_alloc_old; auto. }
    split; [unfold h'; rewrite !len_upd, len_alloc; auto|].
    split; [intros x o G; exists o; rewrite Old; eauto; eapply get_lt; eauto|].
    split; [intros x L; apply nsc_get; auto|]. destruct Gn as (o & G & K & N). exists [n].
    split; [eapply lt_leaf; eauto|]. split; [intros x [<-|[]]; lia|]. simpl. unfold nsc. rewrite G, N. reflexivity.
  - subst l. simpl in H |- *. pose proof (calls_loc a n) as La. fold n in H. destruct (calls a n) as [ca la] eqn:Ca. simpl in La.
    pose proof (calls_loc b (S la)) as Lb. destruct (calls b (S la)) as [cb lb] eqn:Cb. simpl in Lb. simpl in H |- *.
    rewrite run_prog_app in H. destruct (run_prog asort ca h) as [h1|e h1|] eqn:E1; try discriminate. simpl in H.
    rewrite run_prog_app in H. destruct (run_prog asort cb h1) as [h2|e h2|] eqn:E2; try discriminate. simpl in H.
    specialize (IHa h h1). cbv zeta in IHa. fold n in IHa. rewrite Ca in IHa. simpl in IHa. destruct (IHa E1) as (L1 & K1 & N1 & lsa & Ta & Ra & Sa).
    specialize (IHb h1 h2). cbv zeta in IHb. rewrite L1, Cb in IHb. simpl in IHb. destruct (IHb E2) as (L2 & K2 & N2 & lsb & Tb & Rb & Sb).
    destruct (new_csg asort op la lb h2) as [h3|e h3|] eqn:E3; try discriminate. simpl in H. injection H as <-.
    destruct (new_csg_shape _ _ _ _ _ _ E3) as (_ & _ & _ & _ & L3 & _ & (on & Gn & Kn & _) & C3).
    assert (Fr : fresh h2 = S lb) by (unfold fresh; auto). rewrite Fr in *.
    assert (K3 : same_kinds h2 h3) by (intros x o G; destruct (C3 _ _ G) as (o' & G' & K' & _); eauto).
    pose proof (new_csg_nsc _ _ _ _ _ _ _ E3 Tb) as N3. rewrite L2 in N3.
    split; [lia|]. split; [exact (same_kinds_trans _ _ _ (same_kinds_trans _ _ _ K1 K2) K3)|].
    assert (NA : forall x, (x < S la)%nat -> nsc h3 x = nsc h1 x).
    { intros x Lx. rewrite N3 by lia. assert (~ In x lsb) by (intro I; specialize (Rb x I); lia).
      rewrite <- (N2 x Lx). destruct op; auto. destruct (in_dec Nat.eq_dec x lsb); [contradiction|auto]. }
    split; [intros x Lx; rewrite NA by lia; auto|].
    exists (lsa ++ lsb). split; [|split].
    + eapply lt_node; eauto; [apply (ltree_same h2); auto; apply (ltree_same h1); auto|apply (ltree_same h2); auto].
    + intros x I. apply in_app_iff in I. destruct I as [I|I]; [specialize (Ra x I)|specialize (Rb x I)]; lia.
    + assert (MA : map (nsc h3) lsa = map sign_any (subtractions 0 a)).
      { rewrite <- Sa. apply map_ext_in. intros x I. apply NA. specialize (Ra x I). lia. }
      assert (MB : map (nsc h3) lsb = map sign_any (subtractions (match op with DIFFERENCE => 1 | _ => 0 end) b)).
      { destruct op.
        - rewrite <- Sb. apply map_ext_in. intros x I. rewrite N3; auto. specialize (Rb x I). lia.
        - rewrite <- Sb. apply map_ext_in. intros x I. rewrite N3; auto. specialize (Rb x I). lia.
        - rewrite subtractions_S, map_map. transitivity (map (fun _ => -1) (subtractions 0 b)); [|apply map_ext; auto].
          assert (Ln : length lsb = length (subtractions 0 b)) by (rewrite <- (map_length (nsc h2)), Sb, map_length; auto).
          transitivity (map (fun _ : loc => -1) lsb).
          + apply map_ext_in. intros x I. rewrite N3 by (specialize (Rb x I); lia). destruct (in_dec Nat.eq_dec x lsb); [auto|contradiction].
          + clear - Ln. revert Ln. generalize (subtractions 0 b). induction lsb as [|x lsb IH]; intros [|y l] E; try discriminate; auto.
            simpl. f_equal. apply IH. simpl in E. lia. }
      rewrite map_app, MA, MB. destruct op; simpl; rewrite map_app; auto.
Qed.
Lemma shape_leaves : forall n h l s ls, shape_fuel n h l = Some s -> ltree h l ls -> map s_nscale (surface_ids s) = map (nsc h) ls.
Proof.
  induction n as [|n IH]; intros h l s ls H T; [discriminate|]. simpl in H.
  inversion T as [? o p m G K|? o op a b la lb G K Ta Tb]; subst; rewrite G, K in H.
  - injection H as <-. simpl. unfold nsc. rewrite G. auto.
  - destruct (shape_fuel n h a) as [sa|] eqn:Ea; [|discriminate]. destruct (shape_fuel n h b) as [sb|] eqn:Eb; [|discriminate].
    injection H as <-. simpl. rewrite !map_app. f_equal; eauto.
Qed.
Lemma built_normals : forall asort e h h' s, run_prog asort (fst (calls e (length (h_objs h)))) h = Ok h' ->
  shape_of h' (snd (calls e (length (h_objs h)))) = Some s ->
  map s_nscale (surface_ids s) = map sign_any (subtractions 0 e).
Proof.
  intros asort e h h' s H S. destruct (built _ _ _ _ H) as (_ & _ & _ & ls & T & _ & E). rewrite <- E. eapply shape_leaves; eauto.
Qed.
Lemma built_normals_once : forall asort e h h' s, run_prog asort (fst (calls e (length (h_objs h)))) h = Ok h' ->
  shape_of h' (snd (calls e (length (h_objs h)))) = Some s ->
  Forall (fun k => (k <= 1)%nat) (subtractions 0 e) ->
  map s_nscale (surface_ids s) = map (fun k => if Nat.odd k then -1 else 1) (subtractions 0 e).
Proof.
  intros asort e h h' s H S F. rewrite (built_normals _ _ _ _ _ H S). apply map_ext_in. intros k I.
  rewrite Forall_forall in F. specialize (F k I). destruct k as [|[|k]]; auto. lia.
Qed.

(** ** pin *)
Lemma pin_step : forall start cur si t, is_inverse start si -> minv (mmul cur si) = Some t -> mmul t cur = start.
Proof.
  intros start cur si t [I1 I2] M. apply minv_some in M. destruct M as [M1 M2].
  transitivity (mmul t (mmul (mmul cur si) start)).
  - rewrite mmul_assoc, I1, mmul_mid_r. auto.
  - rewrite <- mmul_assoc, M1, mmul_mid_l. auto.
Qed.
Lemma power_1 : forall t, power 1 t = t.
Proof. intro t. simpl. apply mmul_mid_r. Qed.
Lemma pin_exit_cons : forall asort l ls start starts h h', pin_exit asort (l :: ls) (Some start :: starts) h = Ok h' ->
  exists o si t h1, get h l = Some o /\ is_inverse start si /\ mmul t (o_world o) = start /\
    transform asort (depth h) l t h = Ok h1 /\ pin_exit asort ls starts h1 = Ok h'.
Proof.
  intros asort l ls start starts h h' H. cbn [pin_exit] in H. destruct (get h l) as [o|]; [|discriminate].
  destruct (minv start) as [si|] eqn:I; [|discriminate]. destruct (minv (mmul (o_world o) si)) as [t|] eqn:M; [|discriminate].
  apply minv_is_inverse in I.
  destruct (transform asort (depth h) l t h) as [h1|e h1|] eqn:T; try discriminate.
  exists o, si, t, h1. split; auto. split; auto. split; [eapply pin_step; eauto|]. split; [exact T|exact H].
Qed.
Definition wld (h : heap) (x : loc) : option mat := option_map o_world (get h x).
Lemma transform_wld : forall asort l t h h' x o, transform asort (depth h) l t h = Ok h' -> get h x = Some o ->
  wld h' x = Some (mmul (power (times h l x) t) (o_world o)).
Proof.
  intros asort l t h h' x o H G. apply transform_effect in H. destruct (proj2 (proj2 H) _ _ G) as (o' & G' & [_ W]).
  unfold wld. rewrite G'. simpl. rewrite W. reflexivity.
Qed.
Lemma times_zero : forall h l x, ~ In x (parts h l) -> times h l x = 0%nat.
Proof. intros h l x N. unfold times. apply count_occ_not_In. auto. Qed.
Lemma wld_get : forall h x m, wld h x = Some m -> exists o, get h x = Some o /\ o_world o = m.
Proof. intros h x m H. unfold wld in H. destruct (get h x) as [o|]; [|discriminate]. injection H as <-. eauto. Qed.

Lemma pin_exit_frame : forall asort ls starts h h' x m, pin_exit asort ls starts h = Ok h' -> wld h x = Some m ->
  (forall l, In l ls -> ~ In x (parts h l)) -> wld h' x = Some m.
Proof.
  intros asort ls. induction ls as [|l ls IH]; intros starts h h' x m H W N.
  - destruct starts; injection H as <-; auto.
  - destruct starts as [|[start|] starts]; try (injection H as <-; auto).
    destruct (pin_exit_cons _ _ _ _ _ _ _ H) as (o & si & t & h1 & G & I & E & T & R).
    assert (S : sks h h1) by (apply (transform_sks asort (depth h) l t); rewrite T; auto).
    apply (IH _ _ _ _ _ R).
    + destruct (wld_get _ _ _ W) as (ox & Gx & <-). rewrite (transform_wld _ _ _ _ _ _ _ T Gx).
      rewrite times_zero by (apply N; left; auto). simpl. rewrite mmul_mid_l. auto.
    + intros l' I'. rewrite (parts_sks h h1 l' S). apply N. right; auto.
Qed.
Lemma pin_restores : forall asort ls h0 h1 h2, (forall l, In l ls -> exists o, get h0 l = Some o) ->
  pin_exit asort ls (pin_enter h0 ls) h1 = Ok h2 ->
  ForallOrdPairs (fun a b => a = b \/ ~ In a (parts h1 b)) ls ->
  forall l, In l ls -> wld h2 l = wld h0 l.
Proof.
  intros asort ls. induction ls as [|l ls IH]; intros h0 h1 h2 V H F; [intros l []|].
  destruct (V l (or_introl eq_refl)) as (ol & Gl). unfold pin_enter in H. simpl map in H. rewrite Gl in H. simpl option_map in H.
  destruct (pin_exit_cons _ _ _ _ _ _ _ H) as (o & si & t & h1' & G & I & E & T & R).
  assert (S : sks h1 h1') by (apply (transform_sks asort (depth h1) l t); rewrite T; auto).
  inversion F as [|? ? Fl Frest]; subst.
  assert (F' : ForallOrdPairs (fun a b => a = b \/ ~ In a (parts h1' b)) ls).
  { clear - Frest S. induction Frest as [|a l' Fa Fr IHF]; constructor; auto. revert Fa. apply Forall_impl. intros b [->|N]; auto.
    right. rewrite (parts_sks h1 h1' b S). auto. }
  assert (IHr := IH h0 h1' h2 (fun l' Il => V l' (or_intror Il)) R F').
  intros l' [<-|Il]; [|auto]. destruct (in_dec Nat.eq_dec l ls) as [J|J]; [auto|].
  unfold wld at 2. rewrite Gl. simpl. apply (pin_exit_frame _ _ _ _ _ _ _ R).
  - rewrite (transform_wld _ _ _ _ _ _ _ T G). unfold times, parts. rewrite (transform_self_once _ _ _ _ _ _ T), power_1, E. auto.
  - intros b Ib. rewrite (parts_sks h1 h1' b S). rewrite Forall_forall in Fl. destruct (Fl b Ib) as [->|N]; auto; contradiction.
Qed.

Lemma pin_restores_parts : forall asort ls h0 h1 h2, (forall l, In l ls -> exists o, get h0 l = Some o) ->
  pin_exit asort ls (pin_enter h0 ls) h1 = Ok h2 ->
  ForallOrdPairs (apart_from h1) ls ->
  forall l x, In l ls -> In x (parts h1 l) -> times h1 l x = 1%nat -> same_place h0 h1 l x ->
  wld h2 x = wld h0 x.
Proof.
  intros asort ls. induction ls as [|l ls IH]; intros h0 h1 h2 V H F l0 x Il0 Ix Tx SP; [destruct Il0|].
  destruct (V l (or_introl eq_refl)) as (ol & Gl). unfold pin_enter in H. simpl map in H. rewrite Gl in H. simpl option_map in H.
  destruct (pin_exit_cons _ _ _ _ _ _ _ H) as (o & si & t & h1' & G & I & E & T & R).
  assert (S : sks h1 h1') by (apply (transform_sks asort (depth h1) l t); rewrite T; auto).
  inversion F as [|? ? Fl Frest]; subst. rewrite Forall_forall in Fl.
  assert (F' : ForallOrdPairs (apart_from h1') ls).
  { clear - Frest S. induction Frest as [|a l' Fa Fr IHF]; constructor; auto. revert Fa. apply Forall_impl. intros b N y.
    rewrite (parts_sks h1 h1' a S), (parts_sks h1 h1' b S). apply N. }
  destruct SP as (r & al & ax & al' & ax' & G1 & G2 & G3 & G4 & E1 & E2).
  destruct Il0 as [<-|Il0].
  - rewrite Gl in G1. injection G1 as <-. rewrite G in G3. injection G3 as <-.
    unfold wld at 2. rewrite G2. simpl. rewrite E1. apply (pin_exit_frame _ _ _ _ _ _ _ R).
    + rewrite (transform_wld _ _ _ _ _ _ _ T G4), Tx, power_1, E2, <- mmul_assoc, E. auto.
    + intros b Ib J. rewrite (parts_sks h1 h1' b S) in J. exact (Fl b Ib x Ix J).
  - assert (Nx : ~ In x (parts h1 l)) by (intro J; exact (Fl l0 Il0 x J Ix)).
    assert (Nl : ~ In l0 (parts h1 l)).
    { intro J. apply (Fl l0 Il0 l0 J). unfold parts, depth. simpl. auto. }
    pose proof (transform_wld _ _ _ _ _ _ _ T G4) as Wx. rewrite times_zero in Wx by auto. simpl in Wx. rewrite mmul_mid_l in Wx.
    pose proof (transform_wld _ _ _ _ _ _ _ T G3) as Wl. rewrite times_zero in Wl by auto. simpl in Wl. rewrite mmul_mid_l in Wl.
    destruct (wld_get _ _ _ Wx) as (bx & Gbx & Ebx). destruct (wld_get _ _ _ Wl) as (bl & Gbl & Ebl).
    apply (IH h0 h1' h2 (fun l' Il => V l' (or_intror Il)) R F' l0 x Il0).
    + rewrite (parts_sks h1 h1' l0 S). auto.
    + unfold times. rewrite (parts_sks h1 h1' l0 S). exact Tx.
    + exists r, al, ax, bl, bx. rewrite Ebl, Ebx. auto 10.
Qed.

(** ** composition of movements *)
Lemma motion_world : forall asort l m h h' o, apply_motion asort l m h = Ok h' -> get h l = Some o ->
  exists t, motion_matrix m = Some t /\ wld h' l = Some (mmul t (o_world o)).
Proof.
  intros asort l m h h' o H G. unfold apply_motion in H. destruct (motion_matrix m) as [t|]; [|discriminate]. exists t. split; auto.
  rewrite (transform_wld _ _ _ _ _ _ _ H G). unfold times, parts. rewrite (transform_self_once _ _ _ _ _ _ H), power_1. auto.
Qed.
Lemma history_world : forall asort l ms h h' o, run_prog asort (map (CMotion l) ms) h = Ok h' -> get h l = Some o ->
  exists t, composed ms = Some t /\ wld h' l = Some (mmul t (o_world o)).
Proof.
  intros asort l ms. induction ms as [|m ms IH]; intros h h' o H G.
  - injection H as <-. exists mid. split; auto. unfold wld. rewrite G. simpl. rewrite mmul_mid_l. auto.
  - simpl in H. destruct (apply_motion asort l m h) as [h1|e h1|] eqn:E; try discriminate. simpl in H.
    destruct (motion_world _ _ _ _ _ _ E G) as (t & M & W). destruct (wld_get _ _ _ W) as (o1 & G1 & E1).
    destruct (IH _ _ _ H G1) as (u & C & W2). exists (mmul u t). simpl. rewrite M, C. split; auto. rewrite W2, E1, mmul_assoc. auto.
Qed.
