(** * MovedFacts: boxes of trees that are moved *)
From Coq Require Import Reals List Bool ZArith Lra Lia.
Import ListNotations.
From Verif Require Import XR XRFacts Arr Lin LinFacts Prim Csg Surf SpecGeom SpecTree World SpecWorld WorldFacts WorldFacts2 WorldFacts3 WorldFacts4 WorldFacts5 CsgProps SpecMoved.
Open Scope R_scope.

Lemma parent_lt : forall h y x, wf h -> parent h y x -> (x < y)%nat.
Proof.
  intros h y x W (o & op & a & b & G & K & E). pose proof (W y o G) as X. unfold wfx in X. rewrite K in X. destruct X as (_ & A & B & _). destruct E; subst; assumption.
Qed.
Lemma own_current_self : forall asort x t h h1 o op a b, wf h -> append_own asort x t h = Ok h1 -> get h x = Some o -> o_kind o = KCsg op a b -> box_current asort h1 x.
Proof.
  intros asort x t h h1 o op a b W E G K. pose proof (W x o G) as X. unfold wfx in X. rewrite K in X. destruct X as ((rest & EW & F) & La & Lb & _).
  pose proof E as E0. unfold append_own in E. rewrite G in E. set (hb := upd h x _) in *.
  assert (Gb : get hb x = Some (with_world (mmul t (o_world o)) o)) by (unfold hb; apply get_upd_same; exact G).
  assert (NC : forall c, (c < x)%nat -> ~ In (HCsgBox c) (o_watch o)).
  { intros c L I. destruct (watch_csg _ _ _ _ W G I) as [->|P]; [lia|]. apply (parent_lt _ _ _ W) in P. lia. }
  assert (NL : forall c, ~ In (HLeafBox c) (o_watch o)).
  { intros c I. rewrite EW in I. destruct I as [I|[I|I]]; try discriminate. rewrite Forall_forall in F. destruct (F _ I) as (z & [Z|Z] & _); discriminate. }
  refine (run_all_current _ _ _ _ _ _ _ _ _ E _ Gb K (NL x) (NL a) (NC a La) (or_intror (conj (NL b) (NC b Lb)))). rewrite EW. right. left. reflexivity.
Qed.
Lemma own_current_parent : forall asort x t h h1 ox y oy op a b, wf h -> append_own asort x t h = Ok h1 -> get h x = Some ox -> is_shape (o_kind ox) ->
  get h y = Some oy -> o_kind oy = KCsg op a b -> x = a \/ x = b -> ~ parent h a x -> ~ parent h b x -> box_current asort h1 y.
Proof.
  intros asort x t h h1 ox y oy op a b W E G SH Gy Ky EX NA NB. pose proof (W y oy Gy) as X. unfold wfx in X. rewrite Ky in X. destruct X as (_ & La & Lb & HA & HB).
  assert (HK : In (HCsgBox y) (skipn 2 (o_watch ox))).
  { destruct EX as [-> | ->]; [destruct HA as (o1 & G1 & _ & I)|destruct HB as (o1 & G1 & _ & I)]; rewrite G in G1; injection G1 as <-; exact I. }
  assert (exists w1 w2 rest, o_watch ox = w1 :: w2 :: rest /\ Forall (watcher h x) rest) as (w1 & w2 & rest & EW & F).
  { pose proof (W x ox G) as X. unfold wfx in X. destruct (o_kind ox); try destruct SH; [destruct X as (rest & E1 & F1)|destruct X as ((rest & E1 & F1) & _)]; eauto. }
  rewrite EW in HK. cbn [skipn] in HK. rewrite Forall_forall in F.
  assert (NL : forall c, ~ In (HLeafBox c) rest) by (intros c I; destruct (F _ I) as (z & [Z|Z] & _); discriminate).
  assert (NC : forall c, ~ parent h c x -> ~ In (HCsgBox c) rest) by (intros c N I; destruct (F _ I) as (z & [Z|Z] & P); [discriminate|injection Z as <-; contradiction]).
  unfold append_own in E. rewrite G, EW in E. set (hb := upd h x _) in *. cbn [run_all] in E.
  assert (NXY : x <> y) by (destruct EX; subst; lia).
  assert (Gb : get hb y = Some oy) by (unfold hb; rewrite get_upd_other by auto; exact Gy).
  destruct (run_handler asort w1 hb) as [hc|e hc|] eqn:R1; try discriminate. cbn [bind] in E.
  destruct (run_handler asort w2 hc) as [hd|e hd|] eqn:R2; try discriminate. cbn [bind] in E.
  assert (SK : sks hb hd).
  { eapply sks_trans; [apply wsk_sks, (run_handler_wsk asort w1); rewrite R1; reflexivity|]. apply wsk_sks, (run_handler_wsk asort w2). rewrite R2. reflexivity. }
  destruct (proj2 (proj2 SK) _ _ Gb) as (oy3 & Gy3 & (_ & Ky3 & _)). rewrite Ky in Ky3.
  exact (run_all_current _ _ _ _ _ _ _ _ _ E HK Gy3 Ky3 (NL y) (NL a) (NC a NA) (or_intror (conj (NL b) (NC b NB)))).
Qed.
Lemma current_box : forall asort h y o op a b, box_current asort h y -> get h y = Some o -> o_kind o = KCsg op a b ->
  exists u v, box_of h a = Some u /\ box_of h b = Some v /\ box_of h y = Some (csg_box asort op u v).
Proof.
  intros asort h y o op a b C G K. destruct (C o op a b G K) as (u & v & A & B & E). exists u, v. split; [exact A|]. split; [exact B|]. unfold box_of. rewrite G, K, E. reflexivity.
Qed.

(** the box an operand shows while it is moved from [h] to [h'] *)
Definition seen (asort : list xr -> list nat) (h h' : heap) (b : loc) : option box :=
  match get h b with
  | Some o => match o_kind o with
      | KCsg op c d => match box_of h c, box_of h d with Some u, Some v => Some (csg_box asort op u v) | _, _ => None end
      | _ => box_of h' b
      end
  | None => None
  end.
Lemma seen_same : forall asort h1 h2 h' b, sks h1 h2 -> (forall y o, get h1 b = Some o -> In y (children (o_kind o)) -> box_of h2 y = box_of h1 y) -> seen asort h1 h' b = seen asort h2 h' b.
Proof.
  intros asort h1 h2 h' b S B. unfold seen. destruct (get h1 b) as [o|] eqn:G.
  - destruct (proj2 (proj2 S) _ _ G) as (o' & G' & (_ & K & _)). rewrite G', K. specialize (B) with (o := o). destruct (o_kind o) as [|p m|op c d|ms]; try reflexivity.
    rewrite (B c eq_refl) by (left; reflexivity). rewrite (B d eq_refl) by (right; left; reflexivity). reflexivity.
  - destruct (get h2 b) as [o'|] eqn:G'; [|reflexivity]. destruct (hrel_get_back _ _ _ _ _ S G') as (o & G1 & _). congruence.
Qed.
(** moving [b] once its own handlers and its parts are done: what its parent saw *)
Lemma seen_own : forall asort h h1 h' b t ob, wf h -> append_own asort b t h = Ok h1 -> get h b = Some ob -> is_shape (o_kind ob) ->
  (forall p m, o_kind ob = KSurf p m -> h' = h1) -> seen asort h h' b = box_of h1 b.
Proof.
  intros asort h h1 h' b t ob W E G SH LF. unfold seen. rewrite G. destruct (o_kind ob) as [|p m|op c d|ms] eqn:K; try destruct SH.
  - rewrite (LF p m eq_refl). reflexivity.
  - assert (S1 : sks h h1) by (apply (append_own_sks asort b t); rewrite E; auto).
    destruct (proj2 (proj2 S1) _ _ G) as (o' & G' & (_ & K' & _)). rewrite K in K'.
    destruct (current_box _ _ _ _ _ _ _ (own_current_self _ _ _ _ _ _ _ _ _ W E G K) G' K') as (u & v & U & V & B).
    pose proof (W b ob G) as X. unfold wfx in X. rewrite K in X. destruct X as (_ & Lc & Ld & _).
    assert (NP : forall z, (z < b)%nat -> box_of h1 z = box_of h z).
    { intros z L. eapply append_own_box; [exact W|exact E|lia|]. intro P. apply (parent_lt _ _ _ W) in P. lia. }
    rewrite NP in U, V by assumption. rewrite U, V, B. reflexivity.
Qed.

Definition pieced (asort : list xr -> list nat) (h h' : heap) (x : loc) : Prop :=
  forall o op a b, get h x = Some o -> o_kind o = KCsg op a b ->
  exists u v, box_of h' a = Some u /\ seen asort h h' b = Some v /\ box_of h' x = Some (csg_box asort op u v).
Lemma tree_pieced : forall h0 l ps, tree h0 l ps -> NoDup ps ->
  forall asort n t h h', sks h0 h -> wf h -> transform asort n l t h = Ok h' -> forall x, In x ps -> pieced asort h h' x.
Proof.
  intros h0 l ps T. induction T as [l o p m G K|l o op a b pa pb G K Ta IHa Tb IHb]; intros ND asort n t h h' S W H x Ix.
  - destruct Ix as [<-|[]]. intros o1 op a b G1 K1. exfalso. destruct (proj2 (proj2 S) _ _ G) as (o' & G' & (_ & K' & _)). congruence.
  - destruct (proj2 (proj2 S) _ _ G) as (o' & G' & (_ & K' & _)). rewrite K in K'.
    destruct (transform_unfold _ _ _ _ _ _ _ H G') as (n' & h1 & -> & E & Ch). rewrite K' in Ch.
    apply each_two in Ch. destruct Ch as (h2 & Ea & Eb).
    assert (S1 : sks h h1) by (apply (append_own_sks asort l t); rewrite E; auto).
    assert (S2 : sks h1 h2) by (apply (transform_sks asort n' a t); rewrite Ea; auto).
    assert (S3 : sks h2 h') by (apply (transform_sks asort n' b t); rewrite Eb; auto).
    pose proof (wf_kws _ _ (sks_kws _ _ S1) W) as W1. pose proof (wf_kws _ _ (sks_kws _ _ S2) W1) as W2.
    pose proof (sks_trans _ _ _ S S1) as S01. pose proof (sks_trans _ _ _ S01 S2) as S02. pose proof (sks_trans _ _ _ S1 S2) as S12.
    inversion ND as [|? ? Nl NDab]; subst. apply NoDup_app_inv in NDab. destruct NDab as (NDa & NDb & Dis).
    assert (P02 : forall y z, parent h2 y z -> parent h0 y z) by (intros y z; apply parent_kws_back, sks_kws, S02).
    assert (P0 : forall y z, parent h y z -> parent h0 y z) by (intros y z; apply parent_kws_back, sks_kws, S).
    pose proof (tree_self _ _ _ Ta) as Iaa. pose proof (tree_self _ _ _ Tb) as Ibb.
    assert (P01 : forall y z, parent h1 y z -> parent h0 y z) by (intros y z; apply parent_kws_back, sks_kws, S01).
    assert (B1 : forall y, In y (pa ++ pb) -> box_of h1 y = box_of h y).
    { intros y Iy. eapply append_own_box; [exact W|exact E|intros ->; contradiction|]. intro P. apply Nl, in_app_iff.
      apply in_app_iff in Iy. destruct Iy as [Iy|Iy]; [left; eapply tree_closed; [exact Ta|exact Iy|]|right; eapply tree_closed; [exact Tb|exact Iy|]]; apply P0, P. }
    assert (B2 : forall y, In y pb -> box_of h2 y = box_of h1 y).
    { intros y Iy. eapply (tree_transform_box h0 a pa Ta); [exact S01|exact W1|exact Ea|intro; eapply Dis; eauto|].
      intros c Ic P. apply (Dis c); [exact Ic|]. eapply tree_closed; [exact Tb|exact Iy|]. apply P01, P. }
    assert (B3 : forall y, In y pa -> box_of h' y = box_of h2 y).
    { intros y Iy. eapply (tree_transform_box h0 b pb Tb); [exact S02|exact W2|exact Eb|intro; eapply Dis; eauto|].
      intros c Ic P. apply (Dis c); [|exact Ic]. eapply tree_closed; [exact Ta|exact Iy|]. apply P02, P. }
    assert (CH : forall (H : heap) y o1 z, sks h0 H -> get H y = Some o1 -> is_shape (o_kind o1) -> In z (children (o_kind o1)) -> parent h0 y z).
    { intros H0 y o1 z SH G1 SS I. apply (parent_kws_back h0 H0); [apply sks_kws, SH|]. destruct (o_kind o1) as [|p1 m1|op1 a1 b1|ms] eqn:K1; try destruct SS; try destruct I.
      - subst. exists o1, op1, z, b1. auto.
      - destruct H1 as [<-|[]]. exists o1, op1, a1, b1. auto. }
    assert (SHP : forall y, In y (pa ++ pb) -> forall (H : heap) o1, sks h0 H -> get H y = Some o1 -> is_shape (o_kind o1)).
    { assert (TS : forall q qs, tree h0 q qs -> forall y, In y qs -> forall (H : heap) o1, sks h0 H -> get H y = Some o1 -> is_shape (o_kind o1)).
      { intros q qs TQ. induction TQ as [q oq pq mq Gq Kq|q oq opq aq bq qa qb Gq Kq TA IA TB IB]; intros y Iy H0 o1 SH G1.
        - destruct Iy as [<-|[]]. destruct (proj2 (proj2 SH) _ _ Gq) as (o2 & G2 & (_ & K2 & _)). rewrite G1 in G2. injection G2 as <-. rewrite K2, Kq. exact Logic.I.
        - destruct Iy as [<-|Iy].
          + destruct (proj2 (proj2 SH) _ _ Gq) as (o2 & G2 & (_ & K2 & _)). rewrite G1 in G2. injection G2 as <-. rewrite K2, Kq. exact Logic.I.
          + apply in_app_iff in Iy. destruct Iy as [Iy|Iy]; eauto. }
      intros y Iy. apply in_app_iff in Iy. destruct Iy; eauto. }
    destruct Ix as [<-|Ix].
    + intros o1 op1 a1 b1 G1 K1. rewrite G' in G1. injection G1 as <-. rewrite K' in K1. injection K1 as <- <- <-.
      destruct (proj2 (proj2 S02) _ _ G) as (ol2 & Gl2 & (_ & Kl2 & _)). rewrite K in Kl2.
      pose proof (W2 l ol2 Gl2) as Wl. unfold wfx in Wl. rewrite Kl2 in Wl. destruct Wl as (_ & La & Lb & _ & (ob & Gb & Sb & Hb)).
      destruct (transform_unfold _ _ _ _ _ _ _ Eb Gb) as (n2 & h3 & -> & Eb1 & Ebc).
      assert (S23 : sks h2 h3) by (apply (append_own_sks asort b t); rewrite Eb1; auto).
      pose proof (sks_trans _ _ _ S02 S23) as S03. pose proof (wf_kws _ _ (sks_kws _ _ S23) W2) as W3.
      assert (Nab : ~ parent h2 a b) by (intro P; apply (Dis b); [|exact Ibb]; eapply tree_closed; [exact Ta|exact Iaa|apply P02, P]).
      assert (Cur : box_current asort h3 l).
      { apply (own_current_parent asort b t h2 h3 ob l ol2 op a b W2 Eb1 Gb Sb Gl2 Kl2); auto. intro P. apply (parent_lt _ _ _ W2) in P. lia. }
      destruct (proj2 (proj2 S03) _ _ G) as (ol3 & Gl3 & (_ & Kl3 & _)). rewrite K in Kl3.
      destruct (current_box _ _ _ _ _ _ _ Cur Gl3 Kl3) as (u & v & U & V & BX).
      exists u, v. split; [|split].
      * rewrite B3 by exact Iaa. rewrite <- U. symmetry. eapply append_own_box; [exact W2|exact Eb1|intros ->; apply (Dis b); auto|exact Nab].
      * rewrite (seen_same asort h h2 h' b).
        { rewrite (seen_own asort h2 h3 h' b t ob W2 Eb1 Gb Sb); [exact V|]. intros p m Kb. rewrite Kb in Ebc. injection Ebc as <-. reflexivity. }
        { exact S12. }
        { intros y o1 G1 I1. assert (Iy : In y pb). { eapply tree_closed; [exact Tb|exact Ibb|]. apply (CH h b o1 y S G1); [|exact I1]. eapply SHP; [apply in_app_iff; right; exact Ibb|exact S|exact G1]. }
          rewrite B2 by exact Iy. apply B1, in_app_iff. right. exact Iy. }
      * rewrite <- BX.
        inversion Tb as [? o1 p1 m1 G1 K1|? o1 op1 c d pc pd G1 K1 Tc Td Eq1 Eq2]; subst.
        { destruct (proj2 (proj2 S02) _ _ G1) as (o2 & G2 & (_ & K2 & _)). rewrite Gb in G2. injection G2 as <-. rewrite K2, K1 in Ebc. cbn in Ebc. injection Ebc as <-. reflexivity. }
        destruct (proj2 (proj2 S02) _ _ G1) as (o2 & G2 & (_ & K2 & _)). rewrite Gb in G2. injection G2 as <-. rewrite K2, K1 in Ebc.
        apply each_two in Ebc. destruct Ebc as (h4 & Ec & Ed).
        assert (S34 : sks h3 h4) by (apply (transform_sks asort n2 c t); rewrite Ec; auto).
        pose proof (sks_trans _ _ _ S03 S34) as S04. pose proof (wf_kws _ _ (sks_kws _ _ S34) W3) as W4.
        inversion NDb as [|? ? Nb NDcd]; subst.
        assert (OFF : forall (H : heap) e, sks h0 H -> In e (pc ++ pd) -> ~ parent H l e).
        { intros H0 e SH Ie (oy & op' & a' & b' & Gy & Ky & Ec'). destruct (proj2 (proj2 SH) _ _ G) as (oz & Gz & (_ & Kz & _)). rewrite Gy in Gz. injection Gz as <-.
          rewrite K, Ky in Kz. injection Kz as <- <- <-. destruct Ec' as [-> | ->]; [|contradiction]. apply (Dis a'); [exact Iaa|right; exact Ie]. }
        assert (NL : ~ In l (pc ++ pd)) by (intro I; apply Nl, in_app_iff; right; right; exact I).
        transitivity (box_of h4 l).
        { eapply (tree_transform_box h0 d pd Td); [exact S04|exact W4|exact Ed|intro; apply NL, in_app_iff; auto|]. intros e Ie. apply OFF; [exact S04|apply in_app_iff; auto]. }
        { eapply (tree_transform_box h0 c pc Tc); [exact S03|exact W3|exact Ec|intro; apply NL, in_app_iff; auto|]. intros e Ie. apply OFF; [exact S03|apply in_app_iff; auto]. }
    + apply in_app_iff in Ix. destruct Ix as [Ix|Ix]; intros ox opx ax bx Gx Kx.
      * destruct (proj2 (proj2 S1) _ _ Gx) as (ox1 & Gx1 & (_ & Kx1 & _)). rewrite Kx in Kx1.
        destruct (IHa NDa asort n' t h1 h2 S01 W1 Ea x Ix ox1 opx ax bx Gx1 Kx1) as (u & v & U & V & BX).
        assert (PX : forall c, c = ax \/ c = bx -> In c pa).
        { intros c Ec. eapply tree_closed; [exact Ta|exact Ix|]. apply P0. exists ox, opx, ax, bx. auto. }
        exists u, v. split; [rewrite B3 by auto; exact U|]. split; [|rewrite B3 by exact Ix; exact BX].
        rewrite (seen_same asort h h1 h' bx S1).
        { rewrite <- V. unfold seen. destruct (get h1 bx) as [ob|]; [|reflexivity]. destruct (o_kind ob); try (apply B3; auto). reflexivity. }
        { intros y o1 G1 I1. apply B1, in_app_iff. left. eapply tree_closed; [exact Ta|apply (PX bx); auto|]. apply (CH h bx o1 y S G1); [|exact I1]. eapply SHP; [apply in_app_iff; left; apply PX; auto|exact S|exact G1]. }
      * destruct (proj2 (proj2 (sks_trans _ _ _ S1 S2)) _ _ Gx) as (ox1 & Gx1 & (_ & Kx1 & _)). rewrite Kx in Kx1.
        destruct (IHb NDb asort n' t h2 h' S02 W2 Eb x Ix ox1 opx ax bx Gx1 Kx1) as (u & v & U & V & BX).
        exists u, v. split; [exact U|]. split; [|exact BX]. rewrite <- V. apply seen_same; [exact S12|].
        assert (Ib : In bx pb). { eapply tree_closed; [exact Tb|exact Ix|]. apply P0. exists ox, opx, ax, bx. auto. }
        intros y o1 G1 I1. assert (Iy : In y pb). { eapply tree_closed; [exact Tb|exact Ib|]. apply (CH h bx o1 y S G1); [|exact I1]. eapply SHP; [apply in_app_iff; right; exact Ib|exact S|exact G1]. }
        rewrite B2 by exact Iy. apply B1, in_app_iff. right. exact Iy.
Qed.
