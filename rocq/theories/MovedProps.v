(** * MovedProps: shapes that are moved *)
From Coq Require Import Reals List Bool ZArith Lra Lia.
Import ListNotations.
From Verif Require Import XR XRFacts Arr Lin LinFacts Prim Csg Surf SpecGeom SpecTree World SpecWorld WorldFacts WorldFacts2 WorldFacts3 WorldFacts4 WorldFacts5 CsgProps BuildFacts SpecMoved MovedFacts.
Open Scope R_scope.

(** ** trees *)
Lemma tree_sub : forall h l ps, tree h l ps -> NoDup ps -> forall x, In x ps -> exists px, tree h x px /\ NoDup px /\ incl px ps.
Proof.
  intros h l ps T. induction T as [l o p m G K|l o op a b pa pb G K Ta IHa Tb IHb]; intros ND x Ix.
  - destruct Ix as [<-|[]]. exists [l]. split; [eapply tree_leaf; eauto|]. split; [exact ND|apply incl_refl].
  - destruct Ix as [<-|Ix]; [exists (l :: pa ++ pb); split; [eapply tree_node; eauto|]; split; [exact ND|apply incl_refl]|].
    inversion ND as [|? ? Nl NDab]; subst. apply NoDup_app_inv in NDab. destruct NDab as (NDa & NDb & _). apply in_app_iff in Ix.
    destruct Ix as [Ix|Ix]; [destruct (IHa NDa x Ix) as (px & A & B & C)|destruct (IHb NDb x Ix) as (px & A & B & C)]; exists px; split; auto; split; auto; intros y Iy; right; apply in_app_iff; auto.
Qed.
Lemma tree_le : forall h l ps, wf h -> tree h l ps -> forall y, In y ps -> (y <= l)%nat.
Proof.
  intros h l ps W T. induction T as [l o p m G K|l o op a b pa pb G K Ta IHa Tb IHb]; intros y Iy.
  - destruct Iy as [<-|[]]. lia.
  - pose proof (parent_lt h l a W ltac:(exists o, op, a, b; auto)). pose proof (parent_lt h l b W ltac:(exists o, op, a, b; auto)).
    destruct Iy as [<-|Iy]; [lia|]. apply in_app_iff in Iy. destruct Iy as [Iy|Iy]; [specialize (IHa y Iy)|specialize (IHb y Iy)]; lia.
Qed.
Lemma part_in : forall h p l ps x, tree h l ps -> part_at h p l x -> In x ps.
Proof.
  intros h p. induction p as [|d p IH]; intros l ps x T P; [cbn in P; subst; eapply tree_self; eauto|].
  destruct P as (o & op & a & b & G & K & P). inversion T as [? o1 p1 m1 G1 K1|? o1 op1 c e pc pe G1 K1 Tc Te Eq1 Eq2]; subst; rewrite G in G1; injection G1 as <-; rewrite K in K1; [discriminate|injection K1 as <- <- <-].
  right. apply in_app_iff. destruct d; [left|right]; eapply IH; eauto.
Qed.
Lemma shape_fuel_sks : forall h h', sks h h' -> forall n l s, shape_fuel n h l = Some s -> exists s', shape_fuel n h' l = Some s'.
Proof.
  intros h h' S n. induction n as [|n IH]; intros l s E; [discriminate|]. cbn [shape_fuel] in *. destruct (get h l) as [o|] eqn:G; [|discriminate].
  destruct (proj2 (proj2 S) _ _ G) as (o' & G' & (_ & K & _)). rewrite G', K. destruct (o_kind o); try discriminate; eauto.
  destruct (shape_fuel n h l0) as [a|] eqn:A; [|discriminate]. destruct (shape_fuel n h r) as [b|] eqn:B; [|discriminate].
  destruct (IH _ _ A) as (a' & ->). destruct (IH _ _ B) as (b' & ->). eauto.
Qed.
Lemma seen_shape : forall asort h h' n b sb sb', sks h h' -> shape_fuel n h b = Some sb -> shape_fuel n h' b = Some sb' -> seen asort h h' b = Some (seen_box asort sb sb').
Proof.
  intros asort h h' n b sb sb' S E E'. unfold seen. pose proof (shape_box_of _ _ _ _ E') as B'. destruct n as [|n]; [discriminate|]. cbn [shape_fuel] in E.
  destruct (get h b) as [o|]; [|discriminate]. destruct (o_kind o) as [|p m|op c d|ms]; try discriminate; [injection E as <-; exact B'|].
  destruct (shape_fuel n h c) as [sc|] eqn:C; [|discriminate]. destruct (shape_fuel n h d) as [sd|] eqn:D; [|discriminate]. injection E as <-.
  rewrite (shape_box_of _ _ _ _ C), (shape_box_of _ _ _ _ D). reflexivity.
Qed.
(** ** the moved object itself *)
Lemma moved_shape : forall asort h l o t h', wf h -> all_good h -> get h l = Some o -> is_shape (o_kind o) -> NoDup (parts h l) -> transform asort (depth h) l t h = Ok h' ->
  forall n y s s', In y (parts h l) -> shape_fuel n h y = Some s -> shape_fuel n h' y = Some s' -> moved_to asort t s s'.
Proof.
  intros asort h l o t h' W A G SH ND M.
  assert (T : tree h l (parts h l)) by (apply (wf_tree h W (depth h) l o); auto; eapply get_depth; eauto).
  assert (S : sks h h') by (apply (transform_sks asort (depth h) l t); rewrite M; auto).
  pose proof (transform_good _ _ _ _ _ _ A M) as A'.
  induction n as [|n IH]; intros y s s' Iy E E'; [discriminate|]. cbn [shape_fuel] in E, E'.
  destruct (get h y) as [oy|] eqn:Gy; [|discriminate]. destruct (transform_part _ _ _ _ _ _ _ M Gy) as (oy' & Gy' & Id & K & Ns & Wd).
  rewrite (NoDup_times h l y ND Iy), power_1 in Wd. rewrite Gy', K in E'. destruct (o_kind oy) as [|p m|op a b|ms] eqn:Ky; try discriminate.
  - injection E as <-. injection E' as <-. cbn. destruct (A' _ _ Gy') as (_ & (Inv & _) & B). unfold boxc in B. rewrite K in B. rewrite Id, Ns, Wd. rewrite Wd in Inv, B. auto 10.
  - destruct (shape_fuel n h a) as [sa|] eqn:Ea; [|discriminate]. destruct (shape_fuel n h b) as [sb|] eqn:Eb; [|discriminate]. injection E as <-.
    destruct (shape_fuel n h' a) as [sa'|] eqn:Ea'; [|discriminate]. destruct (shape_fuel n h' b) as [sb'|] eqn:Eb'; [|discriminate]. injection E' as <-.
    assert (CL : forall c, c = a \/ c = b -> In c (parts h l)) by (intros c Ec; eapply tree_closed; [exact T|exact Iy|]; exists oy, op, a, b; auto).
    cbn. split; [congruence|]. split; [reflexivity|]. split; [eapply IH; [apply (CL a)| |]; eauto|]. split; [eapply IH; [apply (CL b)| |]; eauto|].
    destruct (tree_pieced h l (parts h l) T ND asort (depth h) t h h' (sks_refl h) W M y Iy oy op a b Gy Ky) as (u & v & U & V & B).
    rewrite (shape_box_of _ _ _ _ Ea') in U. injection U as <-. rewrite (seen_shape _ _ _ _ _ _ _ S Eb Eb') in V. injection V as <-.
    unfold box_of in B. rewrite Gy', K in B. injection B as ->. reflexivity.
Qed.
(** ** something that is not a part of it *)
Lemma still_shape : forall asort h x o t h', wf h -> all_good h -> get h x = Some o -> is_shape (o_kind o) -> transform asort (depth h) x t h = Ok h' ->
  forall l ps, tree h l ps -> (forall y, In y ps -> ~ In y (parts h x)) -> forall n y, In y ps -> shape_fuel n h' y = shape_fuel n h y.
Proof.
  intros asort h x o t h' W A G SH M l ps T D.
  assert (Tx : tree h x (parts h x)) by (apply (wf_tree h W (depth h) x o); auto; eapply get_depth; eauto).
  induction n as [|n IH]; intros y Iy; [reflexivity|]. cbn [shape_fuel].
  destruct (get h y) as [oy|] eqn:Gy.
  - destruct (transform_unmoved _ _ _ _ _ _ _ A M Gy (D y Iy)) as (oy' & Gy' & (Id & K & Ns & Wd & Ob & _)). unfold get_world_transform, get_object_transform in *.
    assert (CL : forall c, parent h y c -> In c ps) by (intros c; apply (tree_closed _ _ _ T); exact Iy).
    assert (B : box_of h' y = box_of h y).
    { eapply (tree_transform_box h x (parts h x) Tx); [apply sks_refl|exact W|exact M|apply D, Iy|]. intros c Ic P. exact (D c (CL c P) Ic). }
    unfold box_of in B. rewrite Gy', Gy in B. rewrite Gy', K. rewrite K in B. destruct (o_kind oy) as [|p m|op a b|ms] eqn:Ky; try reflexivity; injection B as B.
    + rewrite Id, Ns, Wd, Ob, B. reflexivity.
    + rewrite Id, B, (IH a), (IH b); [reflexivity|apply CL; exists oy, op, a, b; auto|apply CL; exists oy, op, a, b; auto].
  - assert (S : sks h h') by (apply (transform_sks asort (depth h) x t); rewrite M; auto).
    destruct (get h' y) as [oy'|] eqn:Gy'; [|reflexivity]. destruct (hrel_get_back _ _ _ _ _ S Gy') as (o1 & G1 & _). congruence.
Qed.
(** the box of the object a moved part is an operand of *)
Lemma operand_box : forall asort h y oy op a b x sib t h' ps, wf h -> get h y = Some oy -> o_kind oy = KCsg op a b -> tree h y ps -> NoDup ps ->
  (x = a /\ sib = b \/ x = b /\ sib = a) -> transform asort (depth h) x t h = Ok h' ->
  exists u v, seen asort h h' x = Some u /\ box_of h sib = Some v /\ box_of h' y = Some (csg_box asort op (if Nat.eqb x a then u else v) (if Nat.eqb x a then v else u)).
Proof.
  intros asort h y oy op a b x sib t h' ps W Gy Ky T ND EX M.
  inversion T as [? o1 p1 m1 G1 K1|? o1 op1 c e pa pb G1 K1 Ta Tb Eq1 Eq2]; subst; rewrite Gy in G1; injection G1 as <-; rewrite Ky in K1; [discriminate|injection K1 as <- <- <-].
  inversion ND as [|? ? Ny NDab]; subst. apply NoDup_app_inv in NDab. destruct NDab as (NDa & NDb & Dis).
  pose proof (tree_self _ _ _ Ta) as Iaa. pose proof (tree_self _ _ _ Tb) as Ibb.
  assert (Nab : a <> b) by (intros ->; apply (Dis b); auto).
  pose proof (W y oy Gy) as Wy. unfold wfx in Wy. rewrite Ky in Wy. destruct Wy as (_ & La & Lb & (oa & Ga & Sa & _) & (ob & Gb & Sb & _)).
  assert (exists ox px, get h x = Some ox /\ is_shape (o_kind ox) /\ tree h x px /\ NoDup px /\ ~ In sib px /\ ~ In y px /\ ~ parent h sib x) as (ox & px & Gx & Sx & Tx & NDx & Ns & Nyx & NP).
  { destruct EX as [[-> ->]|[-> ->]]; [exists oa, pa|exists ob, pb]; (split; [assumption|]; split; [assumption|]; split; [assumption|]; split; [assumption|]).
    - split; [intro; apply (Dis b); auto|]. split; [intro; apply Ny, in_app_iff; auto|]. intro P. apply (Dis a); [exact Iaa|]. eapply tree_closed; [exact Tb|exact Ibb|exact P].
    - split; [intro; apply (Dis a); auto|]. split; [intro; apply Ny, in_app_iff; auto|]. intro P. apply (Dis b); [|exact Ibb]. eapply tree_closed; [exact Ta|exact Iaa|exact P]. }
  destruct (transform_unfold _ _ _ _ _ _ _ M Gx) as (n & h1 & _ & E & Ch).
  assert (S1 : sks h h1) by (apply (append_own_sks asort x t); rewrite E; auto).
  pose proof (wf_kws _ _ (sks_kws _ _ S1) W) as W1.
  assert (NX : ~ parent h x x) by (intro P; apply (parent_lt _ _ _ W) in P; lia).
  assert (CUR : box_current asort h1 y).
  { apply (own_current_parent asort x t h h1 ox y oy op a b W E Gx Sx Gy Ky); destruct EX as [[-> ->]|[-> ->]]; auto. }
  destruct (proj2 (proj2 S1) _ _ Gy) as (oy1 & Gy1 & (_ & Ky1 & _)). rewrite Ky in Ky1.
  destruct (current_box _ _ _ _ _ _ _ CUR Gy1 Ky1) as (u & v & U & V & B).
  assert (BS : box_of h1 sib = box_of h sib) by (eapply append_own_box; [exact W|exact E|destruct EX as [[-> ->]|[-> ->]]; auto|exact NP]).
  assert (BX : seen asort h h' x = box_of h1 x).
  { eapply seen_own; eauto. intros p m K. rewrite K in Ch. injection Ch as <-. reflexivity. }
  assert (BY : box_of h' y = box_of h1 y).
  { inversion Tx as [? o1 p1 m1 G1 K1|? o1 op1 c d pc pd G1 K1 Tc Td Eq1 Eq2]; subst; rewrite Gx in G1; injection G1 as <-; rewrite K1 in Ch.
    - injection Ch as <-. reflexivity.
    - apply each_two in Ch. destruct Ch as (h4 & Ec & Ed).
      assert (S4 : sks h1 h4) by (apply (transform_sks asort n c t); rewrite Ec; auto).
      pose proof (sks_trans _ _ _ S1 S4) as S04. pose proof (wf_kws _ _ (sks_kws _ _ S4) W1) as W4.
      inversion NDx as [|? ? Nx _]; subst.
      assert (OFF : forall (H : heap) e, sks h H -> In e (pc ++ pd) -> ~ parent H y e).
      { intros H0 e SH Ie P. apply (parent_kws_back _ _ _ _ (sks_kws _ _ SH)) in P. destruct P as (oz & op' & a' & b' & Gz & Kz & Ec'). rewrite Gy in Gz. injection Gz as <-. rewrite Ky in Kz. injection Kz as <- <- <-.
        assert (e = x \/ e = sib) as [-> | ->] by (destruct EX as [[-> ->]|[-> ->]]; tauto); [contradiction|]. apply Ns. right. exact Ie. }
      assert (NL : ~ In y (pc ++ pd)) by (intro I; apply Nyx; right; exact I).
      transitivity (box_of h4 y).
      { eapply (tree_transform_box h d pd Td); [exact S04|exact W4|exact Ed|intro; apply NL, in_app_iff; auto|]. intros e Ie. apply OFF; [exact S04|apply in_app_iff; auto]. }
      { eapply (tree_transform_box h c pc Tc); [exact S1|exact W1|exact Ec|intro; apply NL, in_app_iff; auto|]. intros e Ie. apply OFF; [exact S1|apply in_app_iff; auto]. } }
  rewrite BX, <- BS, BY. destruct EX as [[-> ->]|[-> ->]].
  - exists u, v. rewrite Nat.eqb_refl. auto.
  - exists v, u. destruct (Nat.eqb_spec b a); [congruence|]. auto.
Qed.

(** ** a part *)
Lemma part_strict : forall h d p l x, wf h -> part_at h (d :: p) l x -> (x < l)%nat.
Proof.
  intros h d p. revert d. induction p as [|e p IH]; intros d l x W (o & op & a & b & G & K & P).
  - cbn in P. subst. apply (parent_lt _ _ _ W). exists o, op, a, b. destruct d; auto.
  - apply IH in P; [|exact W]. assert (parent h l (match d with OnLeft => a | OnRight => b end)) as Q by (exists o, op, a, b; destruct d; auto). apply (parent_lt _ _ _ W) in Q. lia.
Qed.
Lemma part_moved : forall asort h x ox t h', wf h -> all_good h -> get h x = Some ox -> is_shape (o_kind ox) -> transform asort (depth h) x t h = Ok h' ->
  forall p l ps n s, tree h l ps -> NoDup ps -> part_at h p l x -> shape_fuel n h l = Some s -> exists s', shape_fuel n h' l = Some s' /\ part_moved_to asort t p s s'.
Proof.
  intros asort h x ox t h' W A Gx Sx M.
  assert (Tx : tree h x (parts h x)) by (apply (wf_tree h W (depth h) x ox); auto; eapply get_depth; eauto).
  assert (S : sks h h') by (apply (transform_sks asort (depth h) x t); rewrite M; auto).
  induction p as [|d p IH]; intros l ps n s T ND P E.
  - cbn in P. subst x. destruct (shape_fuel_sks _ _ S _ _ _ E) as (s' & E'). exists s'. split; [exact E'|]. cbn [part_moved_to].
    eapply moved_shape; [exact W|exact A|exact Gx|exact Sx| |exact M| |exact E|exact E'].
    + rewrite (tree_fun _ _ _ Tx _ T). exact ND.
    + eapply tree_self; eauto.
  - pose proof P as P0. destruct P as (o & op & a & b & G & K & P).
    inversion T as [? o1 p1 m1 G1 K1|? o1 op1 c e pa pb G1 K1 Ta Tb Eq1 Eq2]; subst; rewrite G in G1; injection G1 as <-; rewrite K in K1; [discriminate|injection K1 as <- <- <-].
    pose proof ND as ND0. inversion ND as [|? ? Ny NDab]; subst. apply NoDup_app_inv in NDab. destruct NDab as (NDa & NDb & Dis).
    pose proof (tree_self _ _ _ Ta) as Iaa. pose proof (tree_self _ _ _ Tb) as Ibb.
    destruct n as [|n]; [discriminate|]. cbn [shape_fuel] in E. rewrite G, K in E.
    destruct (shape_fuel n h a) as [sa|] eqn:Ea; [|discriminate]. destruct (shape_fuel n h b) as [sb|] eqn:Eb; [|discriminate]. injection E as <-.
    assert (Nx : ~ In l (parts h x)). { intro I. apply (tree_le _ _ _ W Tx) in I. apply part_strict in P0; [lia|exact W]. }
    destruct (transform_unmoved _ _ _ _ _ _ _ A M G Nx) as (o' & G' & (Id & K' & _)). rewrite K in K'.
    assert (SUB : forall qs q, tree h q qs -> NoDup qs -> In x qs -> incl (parts h x) qs).
    { intros qs q TQ NQ I. destruct (tree_sub _ _ _ TQ NQ x I) as (px & A1 & _ & A2). rewrite (tree_fun _ _ _ Tx _ A1). exact A2. }
    assert (BOX : forall d' p', p = d' :: p' -> box_of h' l = box_of h l).
    { intros d' p' ->. eapply (tree_transform_box h x (parts h x) Tx); [apply sks_refl|exact W|exact M|exact Nx|]. intros c Ic (oz & opz & az & bz & Gz & Kz & Ez).
      rewrite G in Gz. injection Gz as <-. rewrite K in Kz. injection Kz as <- <- <-. pose proof (part_strict _ _ _ _ _ W P) as LT. pose proof (tree_le _ _ _ W Tx c Ic).
      destruct d, Ez as [-> | ->]; try lia.
      - apply (Dis b); [|exact Ibb]. eapply SUB; [exact Ta|exact NDa|eapply part_in; [exact Ta|exact P]|exact Ic].
      - apply (Dis a); [exact Iaa|]. eapply SUB; [exact Tb|exact NDb|eapply part_in; [exact Tb|exact P]|exact Ic]. }
    cbn [shape_fuel]. rewrite G', K'.
    destruct d; cbn beta iota in P.
    + destruct (IH a pa n sa Ta NDa P Ea) as (sa' & Ea' & PM).
      assert (Eb' : shape_fuel n h' b = Some sb).
      { rewrite <- Eb. eapply still_shape; [exact W|exact A|exact Gx|exact Sx|exact M|exact Tb| |exact Ibb]. intros y Iy Iy'. apply (Dis y); [|exact Iy]. eapply SUB; [exact Ta|exact NDa|eapply part_in; [exact Ta|exact P]|exact Iy']. }
      rewrite Ea', Eb'. eexists. split; [reflexivity|]. cbn [part_moved_to]. split; [congruence|]. split; [reflexivity|]. split; [reflexivity|]. split; [exact PM|].
      destruct p as [|d' p'].
      * cbn in P. subst x. destruct (operand_box asort h l o op a b a b t h' _ W G K T ND0 (or_introl (conj eq_refl eq_refl)) M) as (u & v & U & V & B).
        rewrite Nat.eqb_refl in B. rewrite (shape_box_of _ _ _ _ Eb) in V. injection V as <-. rewrite (seen_shape _ _ _ _ _ _ _ S Ea Ea') in U. injection U as <-.
        unfold box_of in B. rewrite G', K' in B. injection B as ->. reflexivity.
      * specialize (BOX _ _ eq_refl). unfold box_of in BOX. rewrite G', K', G, K in BOX. injection BOX as ->. reflexivity.
    + destruct (IH b pb n sb Tb NDb P Eb) as (sb' & Eb' & PM).
      assert (Ea' : shape_fuel n h' a = Some sa).
      { rewrite <- Ea. eapply still_shape; [exact W|exact A|exact Gx|exact Sx|exact M|exact Ta| |exact Iaa]. intros y Iy Iy'. apply (Dis y); [exact Iy|]. eapply SUB; [exact Tb|exact NDb|eapply part_in; [exact Tb|exact P]|exact Iy']. }
      rewrite Ea', Eb'. eexists. split; [reflexivity|]. cbn [part_moved_to]. split; [congruence|]. split; [reflexivity|]. split; [reflexivity|]. split; [exact PM|].
      destruct p as [|d' p'].
      * cbn in P. subst x. destruct (operand_box asort h l o op a b b a t h' _ W G K T ND0 (or_intror (conj eq_refl eq_refl)) M) as (u & v & U & V & B).
        assert (EQ : Nat.eqb b a = false) by (apply Nat.eqb_neq; intros ->; apply (Dis a); auto). rewrite EQ in B.
        rewrite (shape_box_of _ _ _ _ Ea) in V. injection V as <-. rewrite (seen_shape _ _ _ _ _ _ _ S Eb Eb') in U. injection U as <-.
        unfold box_of in B. rewrite G', K' in B. injection B as ->. reflexivity.
      * specialize (BOX _ _ eq_refl). unfold box_of in BOX. rewrite G', K', G, K in BOX. injection BOX as ->. reflexivity.
Qed.
Lemma shape_kind : forall n h l s, shape_fuel n h l = Some s -> exists o, get h l = Some o /\ is_shape (o_kind o).
Proof.
  intros [|n] h l s E; [discriminate|]. cbn [shape_fuel] in E. destruct (get h l) as [o|] eqn:G; [|discriminate]. exists o. split; [reflexivity|]. destruct (o_kind o); try discriminate; exact Logic.I.
Qed.
Lemma tree_kind : forall h l ps, tree h l ps -> forall x, In x ps -> exists o, get h x = Some o /\ is_shape (o_kind o).
Proof.
  intros h l ps T. induction T as [l o p m G K|l o op a b pa pb G K Ta IHa Tb IHb]; intros x Ix.
  - destruct Ix as [<-|[]]. exists o. rewrite K. split; [exact G|exact Logic.I].
  - destruct Ix as [<-|Ix]; [exists o; rewrite K; split; [exact G|exact Logic.I]|]. apply in_app_iff in Ix. destruct Ix; auto.
Qed.
Theorem parts_moved : forall asort cs h l s x p m t h', run_prog asort cs empty_heap = Ok h -> shape_of h l = Some s -> NoDup (parts h l) -> part_at h p l x ->
  motion_matrix m = Some t -> apply_motion asort x m h = Ok h' -> exists s', shape_of h' l = Some s' /\ part_moved_to asort t p s s'.
Proof.
  intros asort cs h l s x p m t h' H E ND P MM M. unfold apply_motion in M. rewrite MM in M.
  pose proof (wf_run_prog _ _ _ _ wf_empty H) as W. pose proof (run_prog_good _ _ _ _ empty_good H) as A.
  destruct (shape_kind _ _ _ _ E) as (o & G & SH).
  assert (T : tree h l (parts h l)) by (apply (wf_tree h W (depth h) l o); auto; eapply get_depth; eauto).
  destruct (tree_kind _ _ _ T x (part_in _ _ _ _ _ T P)) as (ox & Gx & Sx).
  assert (S : sks h h') by (apply (transform_sks asort (depth h) x t); rewrite M; auto).
  destruct (part_moved asort h x ox t h' W A Gx Sx M p l (parts h l) (depth h) s T ND P E) as (s' & E' & PM).
  exists s'. split; [|exact PM]. unfold shape_of. replace (depth h') with (depth h); [exact E'|]. unfold depth. destruct S as (_ & LN & _). congruence.
Qed.

(** ** idle movements *)
Fixpoint leaf_boxes (s : shape) : Prop :=
  match s with Leaf f b => b = surf_box (s_prim f) (s_world f) | Node _ _ _ a b => leaf_boxes a /\ leaf_boxes b end.
Fixpoint fitted (asort : list xr -> list nat) (d : nat) (s : shape) : Prop :=
  match s with
  | Leaf f b => b = surf_box (s_prim f) (s_world f)
  | Node _ op bx a b => fitted asort d a /\ fitted asort d b /\ ((lag s <= d)%nat -> bx = csg_box asort op (shape_box a) (shape_box b))
  end.
Lemma lag_pos : forall s, (1 <= lag s)%nat.
Proof. induction s as [f b|i op bx a IHa b IHb]; cbn [lag]; [lia|]. destruct op, b; lia. Qed.
Lemma lag_operands : forall i op bx a b, (lag a <= lag (Node i op bx a b))%nat /\ (lag b <= lag (Node i op bx a b))%nat.
Proof. intros. cbn [lag]. lia. Qed.
Lemma moved_lag2 : forall asort t s s', moved_to asort t s s' -> lag s' = lag s /\
  match s, s' with Node _ _ _ c d, Node _ _ _ c' d' => lag c' = lag c /\ lag d' = lag d | _, _ => True end.
Proof.
  intros asort t. induction s as [f b|i op bx a IHa b IHb]; intros [f' b'|i' op' bx' a' b'] M; try contradiction; [split; [reflexivity|exact Logic.I]|].
  destruct M as (_ & -> & Ma & Mb & _). destruct (IHa _ Ma) as (Ea & _). destruct (IHb _ Mb) as (Eb & Ec). split; [|auto].
  cbn [lag]. rewrite Ea, Eb. destruct b as [g bg|j opb bb c d], b' as [g' bg'|j' opb' bb' c' d']; try contradiction; [reflexivity|]. destruct Ec as (-> & ->). reflexivity.
Qed.
Lemma moved_lag : forall asort t s s', moved_to asort t s s' -> lag s' = lag s.
Proof. intros asort t s s' M. exact (proj1 (moved_lag2 _ _ _ _ M)). Qed.
Lemma first_move : forall asort t s s', moved_to asort t s s' -> fitted asort 1 s'.
Proof.
  intros asort t. induction s as [f b|i op bx a IHa b IHb]; intros [f' b'|i' op' bx' a' b'] M; try contradiction.
  - cbn. apply M.
  - pose proof (moved_lag _ _ _ _ M) as LG. destruct M as (_ & -> & Ma & Mb & ->). cbn [fitted]. split; [apply IHa, Ma|]. split; [apply IHb, Mb|]. rewrite LG. intro L.
    cbn [lag] in L. destruct op; try reflexivity; destruct b as [g bg|j opb bb c d]; try reflexivity; pose proof (lag_pos c); lia.
Qed.
Lemma seen_settled : forall asort d e e', fitted asort d e -> (lag e <= d)%nat -> (shape_box e' = shape_box e) -> seen_box asort e e' = shape_box e.
Proof. intros asort d [f b|i op bx a b] e' F L E; [exact E|]. cbn [seen_box shape_box]. destruct F as (_ & _ & F). symmetry. apply F, L. Qed.
Lemma settled : forall asort d s s', fitted asort d s -> (lag s <= d)%nat -> moved_to asort mid s s' -> shape_box s' = shape_box s.
Proof.
  intros asort d. induction s as [f b|i op bx a IHa b IHb]; intros [f' b'|i' op' bx' a' b'] F L M; try contradiction.
  - cbn in *. destruct M as (_ & EP & _ & _ & EW & _ & ->). rewrite EW, EP, mmul_mid_l. symmetry. exact F.
  - destruct M as (_ & -> & Ma & Mb & ->). destruct F as (Fa & Fb & Fx). rewrite (Fx L). destruct (lag_operands i op bx a b) as (La & Lb). cbn [shape_box].
    rewrite (IHa a' Fa) by (auto; lia). rewrite (seen_settled asort d b b' Fb); [reflexivity|lia|]. apply IHb; auto; lia.
Qed.
Lemma idle_move : forall asort d s s', fitted asort d s -> moved_to asort mid s s' -> fitted asort (S d) s'.
Proof.
  intros asort d. induction s as [f b|i op bx a IHa b IHb]; intros [f' b'|i' op' bx' a' b'] F M; try contradiction.
  - cbn. apply M.
  - pose proof (moved_lag _ _ _ _ M) as LG. destruct M as (_ & -> & Ma & Mb & ->). destruct F as (Fa & Fb & _). cbn [fitted]. split; [apply IHa; auto|]. split; [apply IHb; auto|]. rewrite LG. intro L.
    destruct b as [g bg|j opb bb c e]; [reflexivity|]. destruct b' as [g' bg'|j' opb' bb' c' e']; try contradiction. pose proof Mb as (_ & -> & Mc & Me & ->). destruct Fb as (Fc & Fe & _).
    assert (op = DIFFERENCE \/ (lag c <= d /\ lag e <= d)%nat) as [-> | [Lc Le]] by (cbn [lag] in L; destruct op; [right; lia|right; lia|left; reflexivity]); [reflexivity|].
    f_equal. cbn [seen_box shape_box]. rewrite (settled asort d c c') by auto. rewrite (seen_settled asort d e e') by (auto; apply settled with (d := d) (asort := asort); auto). reflexivity.
Qed.
Lemma fitted_current : forall asort d s, argsort_ok asort -> fitted asort d s -> (lag s <= d)%nat -> boxes_current s.
Proof.
  intros asort d s AS. induction s as [f b|i op bx a IHa b IHb]; intros F L; [exact F|]. destruct F as (Fa & Fb & Fx). destruct (lag_operands i op bx a b). cbn [boxes_current].
  split; [apply IHa; auto; lia|]. split; [apply IHb; auto; lia|]. exists asort. auto.
Qed.
Lemma moved_surfaces : forall asort t s s1 s2, moved_to asort t s s1 -> moved_to asort mid s1 s2 -> surface_ids s2 = surface_ids s1.
Proof.
  intros asort t. induction s as [f b|i op bx a IHa b IHb]; intros [f1 b1|i1 op1 bx1 a1 b1] [f2 b2|i2 op2 bx2 a2 b2] M N; try contradiction.
  - cbn in *. destruct M as (_ & _ & _ & _ & _ & I1 & _). destruct N as (E1 & E2 & E3 & E4 & E5 & I2 & _). rewrite mmul_mid_l in E5. rewrite E5 in I2.
    pose proof (inverse_unique _ _ _ (proj1 I2) (proj2 I1)) as EO. destruct f1, f2. cbn in *. subst. reflexivity.
  - destruct M as (_ & _ & Ma & Mb & _). destruct N as (_ & _ & Na & Nb & _). cbn [surface_ids]. rewrite (IHa _ _ Ma Na), (IHb _ _ Mb Nb). reflexivity.
Qed.
Lemma app_inj_length : forall (A : Type) (a b c d : list A), a ++ b = c ++ d -> length a = length c -> a = c /\ b = d.
Proof.
  intros A a. induction a as [|x a IH]; intros b [|y c] d E L; try discriminate; [auto|]. cbn in E, L. injection E as -> E. injection L as L. destruct (IH b c d E L) as (-> & ->). auto.
Qed.
Lemma surfaces_inside : forall asort t s1 s2, moved_to asort t s1 s2 -> surface_ids s2 = surface_ids s1 -> forall q, inside s2 q <-> inside s1 q.
Proof.
  intros asort t. induction s1 as [f b|i op bx a IHa b IHb]; intros [f2 b2|i2 op2 bx2 a2 b2] M E q; try contradiction.
  - cbn in E. injection E as ->. reflexivity.
  - destruct M as (_ & -> & Ma & Mb & _). cbn [surface_ids] in E.
    assert (LN : forall t s s', moved_to asort t s s' -> length (surface_ids s') = length (surface_ids s)).
    { clear. intros t. induction s as [f b|i op bx a IHa b IHb]; intros [f' b'|i' op' bx' a' b'] M; try contradiction; [reflexivity|]. destruct M as (_ & _ & Ma & Mb & _). cbn [surface_ids]. rewrite !app_length, (IHa _ Ma), (IHb _ Mb). reflexivity. }
    apply app_inj_length in E; [|apply (LN t), Ma].
    destruct E as (Ea & Eb). cbn [inside]. specialize (IHa _ Ma Ea q). specialize (IHb _ Mb Eb q). destruct op; tauto.
Qed.
Definition idle : motion := Move 0 0 0.
Lemma motion_ok : forall asort l m h h', apply_motion asort l m h = Ok h' -> exists t, motion_matrix m = Some t.
Proof. intros asort l m h h' M. unfold apply_motion in M. destruct (motion_matrix m) as [t|]; [eauto|discriminate]. Qed.
Theorem idle_moves : forall asort cs h l s m h1 k h', argsort_ok asort -> run_prog asort cs empty_heap = Ok h -> shape_of h l = Some s -> NoDup (parts h l) ->
  apply_motion asort l m h = Ok h1 -> run_prog asort (repeat (CMotion l (Move 0 0 0)) k) h1 = Ok h' ->
  exists s1 s', shape_of h1 l = Some s1 /\ shape_of h' l = Some s' /\ surface_ids s' = surface_ids s1 /\ (forall q, inside s' q <-> inside s1 q) /\
    ((lag s <= S k)%nat -> boxes_current s').
Proof.
  intros asort cs h l s m h1 k h' AS H E ND M R. destruct (motion_ok _ _ _ _ _ M) as (t & MM).
  destruct (parts_moved asort cs h l s l [] m t h1 H E ND eq_refl MM M) as (s1 & E1 & P1). cbn [part_moved_to] in P1. exists s1.
  pose proof (run_prog_app asort cs [CMotion l m] empty_heap) as RA. rewrite H in RA. cbn [bind run_prog run_call] in RA. rewrite M in RA. cbn [bind] in RA.
  pose proof (first_move _ _ _ _ P1) as F1. pose proof (moved_lag _ _ _ _ P1) as L1. rewrite <- L1.
  assert (ND1 : NoDup (parts h1 l)).
  { unfold apply_motion in M. rewrite MM in M. rewrite (parts_sks h h1); [exact ND|]. apply (transform_sks asort (depth h) l t). rewrite M. auto. }
  set (cs1 := cs ++ [CMotion l m]) in *. clearbody cs1. clear H E ND M MM L1.
  enough (X : exists s', shape_of h' l = Some s' /\ surface_ids s' = surface_ids s1 /\ (forall q, inside s' q <-> inside s1 q) /\ fitted asort (S k) s' /\ lag s' = lag s1).
  { destruct X as (s' & A & B & C & D & LE). exists s'. split; [exact E1|]. split; [exact A|]. split; [exact B|]. split; [exact C|]. intro L. eapply fitted_current; [exact AS|exact D|]. rewrite LE. exact L. }
  assert (GEN : forall k d cs1 h1 s s1 t h', moved_to asort t s s1 -> fitted asort d s1 -> run_prog asort cs1 empty_heap = Ok h1 -> NoDup (parts h1 l) -> shape_of h1 l = Some s1 ->
    run_prog asort (repeat (CMotion l (Move 0 0 0)) k) h1 = Ok h' -> exists s', shape_of h' l = Some s' /\ surface_ids s' = surface_ids s1 /\ (forall q, inside s' q <-> inside s1 q) /\ fitted asort (d + k) s' /\ lag s' = lag s1).
  2: { specialize (GEN k 1%nat cs1 h1 s s1 t h' P1 F1 RA ND1 E1 R). exact GEN. }
  clear. induction k as [|k IH]; intros d cs1 h1 s s1 t h' P1 F1 H ND E R.
  - cbn in R. injection R as <-. exists s1. rewrite Nat.add_0_r. repeat split; auto.
  - cbn [repeat run_prog run_call] in R. destruct (apply_motion asort l (Move 0 0 0) h1) as [h2|e h2|] eqn:M; try discriminate. cbn [bind] in R.
    assert (MM : motion_matrix (Move 0 0 0) = Some mid) by reflexivity.
    destruct (parts_moved asort cs1 h1 l s1 l [] (Move 0 0 0) mid h2 H E ND eq_refl MM M) as (s2 & E2 & P2). cbn [part_moved_to] in P2.
    pose proof (moved_surfaces _ _ _ _ _ P1 P2) as SU. pose proof (surfaces_inside _ _ _ _ P2 SU) as IN. pose proof (moved_lag _ _ _ _ P2) as L2.
    destruct (IH (S d) (cs1 ++ [CMotion l (Move 0 0 0)]) h2 s1 s2 mid h') as (s' & A & B & C & D & LE); auto.
    + apply (idle_move asort d s1 s2 F1 P2).
    + rewrite run_prog_app, H. cbn [bind run_prog run_call]. rewrite M. reflexivity.
    + unfold apply_motion in M. rewrite MM in M. rewrite (parts_sks h1 h2); [exact ND|]. apply (transform_sks asort (depth h1) l mid). rewrite M. auto.
    + exists s'. split; [exact A|]. split; [congruence|]. split; [intro q; rewrite C; apply IN|]. split; [replace (d + S k)%nat with (S d + k)%nat by lia; exact D|]. congruence.
Qed.
