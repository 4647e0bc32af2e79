(** * MoveBoxes: which boxes a movement leaves behind *)
From Coq Require Import Reals Lra Lia List Bool Arith.
Import ListNotations.
From Verif Require Import XR XRFacts Arr Lin LinFacts Prim Csg Surf World SpecWorld WorldFacts WorldFacts2 WorldFacts3 WorldFacts4 SpecMove.
Open Scope R_scope.

Lemma parent_lt : forall h y x, wf h -> parent h y x -> (x < y)%nat.
Proof.
  intros h y x W (oy & op & a & b & G & K & E). pose proof (W y oy G) as X. unfold wfx in X. rewrite K in X. destruct X as (_ & La & Lb & _). destruct E; subst; auto.
Qed.
Lemma shape_watch : forall h c oc, wf h -> get h c = Some oc -> is_shape (o_kind oc) ->
  exists w rest, o_watch oc = HMat c :: w :: rest /\ Forall (watcher h c) rest /\
    w = match o_kind oc with KSurf _ _ => HLeafBox c | _ => HCsgBox c end.
Proof.
  intros h c oc W G S. pose proof (W c oc G) as X. unfold wfx in X. destruct (o_kind oc); try destruct S.
  - destruct X as (rest & E & F). eauto 6.
  - destruct X as ((rest & E & F) & _). eauto 6.
Qed.

(** moving an operand makes the box of its direct parent fit the operands as they are at
    that moment *)
Lemma append_parent : forall asort c t h h3 y oy op a b oc, wf h -> append_own asort c t h = Ok h3 -> get h c = Some oc -> is_shape (o_kind oc) ->
  get h y = Some oy -> o_kind oy = KCsg op a b -> c = a \/ c = b -> (forall d, d = a \/ d = b -> ~ parent h d c) -> box_current asort h3 y.
Proof.
  intros asort c t h h3 y oy op a b oc W E Gc Sc Gy Ky Ec NP.
  pose proof (W y oy Gy) as Wy. unfold wfx in Wy. rewrite Ky in Wy. destruct Wy as (_ & La & Lb & Ha & Hb).
  destruct (shape_watch h c oc W Gc Sc) as (w & rest & Ew & Fw & Kw).
  assert (Hk : In (HCsgBox y) rest).
  { destruct Ec as [-> | ->]; [destruct Ha as (o1 & G1 & _ & I)|destruct Hb as (o1 & G1 & _ & I)]; rewrite Gc in G1; injection G1 as <-; rewrite Ew in I; exact I. }
  assert (NB : forall d, d = a \/ d = b -> ~ In (HCsgBox d) rest /\ ~ In (HLeafBox d) rest).
  { intros d Ed. split; intro I; rewrite Forall_forall in Fw; destruct (Fw _ I) as (z & [Ez|Ez] & P); try discriminate. injection Ez as <-. exact (NP d Ed P). }
  unfold append_own in E. rewrite Gc, Ew in E. set (hb := upd h c (with_world (mmul t (o_world oc)))) in *.
  assert (Gy0 : get hb y = Some oy) by (unfold hb; rewrite get_upd_other; [auto|destruct Ec; subst; lia]).
  cbn [run_all] in E. destruct (run_handler asort (HMat c) hb) as [hc|e hc|] eqn:R1; try discriminate. cbn [bind] in E.
  destruct (run_handler asort w hc) as [hd|e hd|] eqn:R2; try discriminate. cbn [bind] in E.
  assert (Skd : sks hb hd).
  { eapply sks_trans; [apply wsk_sks, (run_handler_wsk asort (HMat c)); rewrite R1; reflexivity|]. apply wsk_sks, (run_handler_wsk asort w). rewrite R2. reflexivity. }
  destruct (proj2 (proj2 Skd) _ _ Gy0) as (oy3 & Gy3 & (_ & Ky3 & _)). rewrite Ky in Ky3.
  refine (run_all_current _ _ _ _ _ _ _ _ _ E Hk Gy3 Ky3 _ _ _ (or_intror (conj _ _))); [|apply NB; auto|apply NB; auto|apply NB; auto|apply NB; auto].
  intro I. rewrite Forall_forall in Fw. destruct (Fw _ I) as (z & [Ez|Ez] & P); discriminate.
Qed.
(** a moved CSG object first takes its own box from its operands, which have not moved *)
Lemma append_self : forall asort c t h h3 oc op e f, wf h -> append_own asort c t h = Ok h3 -> get h c = Some oc -> o_kind oc = KCsg op e f ->
  exists E F, box_of h e = Some E /\ box_of h f = Some F /\ box_of h3 c = Some (csg_box asort op E F).
Proof.
  intros asort c t h h3 oc op e f W E Gc Kc. pose proof (W c oc Gc) as X. unfold wfx in X. rewrite Kc in X. destruct X as ((rest & Ew & Fw) & Le & Lf & _ & _).
  unfold append_own in E. rewrite Gc, Ew in E. set (hb := upd h c (with_world (mmul t (o_world oc)))) in *.
  assert (G0 : get hb c = Some (with_world (mmul t (o_world oc)) oc)) by (apply get_upd_same; auto).
  cbn [run_all] in E. destruct (run_handler asort (HMat c) hb) as [hc|e1 hc|] eqn:R1; try discriminate. cbn [bind] in E.
  destruct (run_handler asort (HCsgBox c) hc) as [hd|e1 hd|] eqn:R2; try discriminate. cbn [bind] in E.
  assert (B1 : forall x, box_of hc x = box_of h x).
  { intro x. unfold hb in R1. rewrite <- (upd_world_box h c (mmul t (o_world oc)) x). fold hb in R1 |- *. apply (run_all_box asort [HMat c] hb hc x).
    - cbn [run_all]. rewrite R1. reflexivity.
    - intros [X|[]]; discriminate.
    - intros [X|[]]; discriminate. }
  assert (Gc1 : exists o1, get hc c = Some o1 /\ o_kind o1 = KCsg op e f).
  { assert (S : sks hb hc) by (apply wsk_sks, (run_handler_wsk asort (HMat c)); rewrite R1; reflexivity).
    destruct (proj2 (proj2 S) _ _ G0) as (o1 & G1 & (_ & K1 & _)). exists o1. split; auto. rewrite K1. exact Kc. }
  destruct Gc1 as (o1 & G1 & K1). apply run_handler_step in R2. destruct (proj2 (proj2 R2) _ _ G1) as (o2 & G2 & ((_ & K2 & _) & _ & _ & _ & _ & _ & St)).
  destruct (St eq_refl) as (op' & e' & f' & ba & bb & K' & Ba & Bb & Box). rewrite K1 in K'. injection K' as <- <- <-. rewrite B1 in Ba, Bb.
  exists ba, bb. split; [exact Ba|]. split; [exact Bb|]. rewrite (run_all_box _ _ _ _ c E).
  - unfold box_of. rewrite G2, K2, K1, Box. reflexivity.
  - intro I. rewrite Forall_forall in Fw. destruct (Fw _ I) as (z & [Ez|Ez] & P); discriminate.
  - intro I. rewrite Forall_forall in Fw. destruct (Fw _ I) as (z & [Ez|Ez] & P); [discriminate|]. injection Ez as <-. apply parent_lt in P; auto. lia.
Qed.

Lemma transform_seen : forall asort n c t h h' oc, wf h -> transform asort n c t h = Ok h' -> get h c = Some oc -> is_shape (o_kind oc) ->
  exists h3 B, append_own asort c t h = Ok h3 /\ box_of h3 c = Some B /\ last_seen asort h h' c B.
Proof.
  intros asort n c t h h' oc W H G S. destruct (transform_unfold _ _ _ _ _ _ _ H G) as (n' & h3 & -> & E & Ch). exists h3. unfold last_seen. rewrite G.
  assert (S1 : sks h h3) by (apply (append_own_sks asort c t); rewrite E; auto). destruct (proj2 (proj2 S1) _ _ G) as (o3 & G3 & (_ & K3 & _)).
  destruct (o_kind oc) as [|p m|op e f|ms] eqn:K; try destruct S.
  - injection Ch as <-. assert (X : exists B, box_of h3 c = Some B) by (unfold box_of; rewrite G3, K3; eauto). destruct X as (B & X). eauto.
  - destruct (append_self asort c t h h3 oc op e f W E G K) as (Eb & Fb & X1 & X2 & X3). eauto 10.
Qed.
Lemma last_seen_frame : forall asort h1 h1' h2 h2' ps b B, sks h2 h1 -> tree h1 b ps -> (forall x, In x ps -> box_of h2 x = box_of h1 x) ->
  (forall x, In x ps -> box_of h2' x = box_of h1' x) -> last_seen asort h1 h1' b B -> last_seen asort h2 h2' b B.
Proof.
  intros asort h1 h1' h2 h2' ps b B S T F F' L. unfold last_seen in *. destruct (get h1 b) as [ob|] eqn:G; [|destruct L].
  destruct (hrel_get_back _ _ _ _ _ S G) as (ob2 & G2 & (_ & K & _)). rewrite G2, <- K. pose proof (tree_self _ _ _ T) as Ib.
  destruct (o_kind ob) as [|p m|op c d|ms] eqn:Kb; try (rewrite F' by auto; exact L).
  destruct L as (C & D & BC & BD & E). exists C, D. inversion T as [? o1 p1 m1 G1 K1|? o1 op1 a1 b1 pa pb G1 K1 Ta Tb Eq1 Eq2]; subst.
  { rewrite G in G1. injection G1 as <-. congruence. }
  rewrite G in G1. injection G1 as <-. rewrite Kb in K1. injection K1 as <- <- <-.
  rewrite !F; auto; right; apply in_app_iff; [right|left]; eapply tree_self; eauto.
Qed.
Lemma tree_sub : forall h l ps, tree h l ps -> forall x c, In x ps -> parent h x c -> exists q, tree h c q /\ incl q ps.
Proof.
  intros h l ps T. induction T as [l o p m G K|l o op a b pa pb G K Ta IHa Tb IHb]; intros x c I P.
  - destruct I as [<-|[]]. destruct P as (oy & op & a & b & Gy & Ky & E). rewrite G in Gy. injection Gy as <-. congruence.
  - destruct I as [<-|I].
    + destruct P as (oy & op' & a' & b' & Gy & Ky & E). rewrite G in Gy. injection Gy as <-. rewrite K in Ky. injection Ky as <- <- <-.
      destruct E as [-> | ->]; [exists pa|exists pb]; (split; [assumption|]); intros z Iz; right; apply in_app_iff; auto.
    + apply in_app_iff in I. destruct I as [I|I]; [destruct (IHa x c I P) as (q & Q & Inc)|destruct (IHb x c I P) as (q & Q & Inc)];
        exists q; (split; [exact Q|]); intros z Iz; right; apply in_app_iff; auto.
Qed.
Lemma tree_shape : forall h l ps, tree h l ps -> exists o, get h l = Some o /\ is_shape (o_kind o).
Proof. intros h l ps []; eexists; (split; [eassumption|]); rewrite H0; exact I. Qed.

Theorem tree_boxes : forall h0 l ps, tree h0 l ps -> NoDup ps -> forall asort n t h h', sks h0 h -> wf h -> transform asort n l t h = Ok h' ->
  forall x ox op a b, In x ps -> get h0 x = Some ox -> o_kind ox = KCsg op a b ->
  exists A B, box_of h' a = Some A /\ last_seen asort h h' b B /\ box_of h' x = Some (csg_box asort op A B).
Proof.
  intros h0 l ps T. induction T as [l o p m G K|l o op a b pa pb G K Ta IHa Tb IHb]; intros ND asort n t h h' S W H x ox opx ax bx Ix Gx Kx.
  { destruct Ix as [<-|[]]. rewrite G in Gx. injection Gx as <-. congruence. }
  destruct (proj2 (proj2 S) _ _ G) as (o' & G' & (_ & K' & _)). rewrite K in K'.
  destruct (transform_unfold _ _ _ _ _ _ _ H G') as (n' & h1 & -> & E & Ch). rewrite K' in Ch.
  apply each_two in Ch. destruct Ch as (h2 & Ea & Eb).
  assert (S1 : sks h h1) by (apply (append_own_sks asort l t); rewrite E; auto).
  assert (S2 : sks h1 h2) by (apply (transform_sks asort n' a t); rewrite Ea; auto).
  assert (S3 : sks h2 h') by (apply (transform_sks asort n' b t); rewrite Eb; auto).
  pose proof (wf_kws _ _ (sks_kws _ _ S1) W) as W1. pose proof (wf_kws _ _ (sks_kws _ _ S2) W1) as W2.
  pose proof (sks_trans _ _ _ S S1) as S01. pose proof (sks_trans _ _ _ S01 S2) as S02.
  inversion ND as [|? ? Nl NDab]; subst. apply NoDup_app_inv in NDab. destruct NDab as (NDa & NDb & Dis).
  assert (P0 : forall hh y z, sks h0 hh -> parent hh y z -> parent h0 y z) by (intros hh y z Sh; apply parent_kws_back, sks_kws, Sh).
  assert (Ina : forall y, In y pa -> y <> l) by (intros y I ->; apply Nl, in_app_iff; auto).
  assert (Inb : forall y, In y pb -> y <> l) by (intros y I ->; apply Nl, in_app_iff; auto).
  assert (Cla : forall y z, In y pa -> parent h0 y z -> In z pa) by (intros; eapply tree_closed; eauto).
  assert (Clb : forall y z, In y pb -> parent h0 y z -> In z pb) by (intros; eapply tree_closed; eauto).
  (* frames *)
  assert (Fr1 : forall y, In y pa \/ In y pb -> box_of h1 y = box_of h y).
  { intros y I. eapply append_own_box; eauto.
    - destruct I; auto.
    - intro P. apply (P0 _ _ _ S) in P. destruct I as [I|I]; [apply (Ina l); auto; eapply Cla; eauto|apply (Inb l); auto; eapply Clb; eauto]. }
  assert (Fr2 : forall y, In y pb -> box_of h2 y = box_of h1 y).
  { intros y I. apply (tree_transform_box h0 a pa Ta asort n' t h1 h2 S01 W1 Ea).
    - intro J. apply (Dis y); auto.
    - intros c Ic P. apply (P0 _ _ _ S01) in P. apply (Dis c); auto. eapply Clb; eauto. }
  assert (Fr3 : forall y, In y pa -> box_of h' y = box_of h2 y).
  { intros y I. apply (tree_transform_box h0 b pb Tb asort n' t h2 h' S02 W2 Eb).
    - intro J. apply (Dis y); auto.
    - intros c Ic P. apply (P0 _ _ _ S02) in P. apply (Dis c); auto. eapply Cla; eauto. }
  assert (T' : forall hh y q, sks h0 hh -> tree h0 y q -> tree hh y q) by (intros; eapply tree_kws; [apply sks_kws|]; eauto).
  destruct Ix as [<-|Ix].
  - rewrite G in Gx. injection Gx as <-. rewrite K in Kx. injection Kx as <- <- <-.
    destruct (tree_shape _ _ _ Tb) as (ob0 & Gb0 & Sb0). destruct (proj2 (proj2 S02) _ _ Gb0) as (ob & Gb & (_ & Kb & _)). rewrite <- Kb in Sb0.
    destruct (proj2 (proj2 S02) _ _ G) as (ol & Gl & (_ & Kl & _)). rewrite K in Kl.
    pose proof (tree_self _ _ _ Ta) as Iaa. pose proof (tree_self _ _ _ Tb) as Ibb.
    destruct (transform_seen asort n' b t h2 h' ob W2 Eb Gb Sb0) as (h3 & B & E3 & B3 & L3).
    assert (Cur : box_current asort h3 l).
    { apply (append_parent asort b t h2 h3 l ol op a b ob); auto. intros d [->| ->] P.
      - apply (P0 _ _ _ S02) in P. apply (Dis b); auto. eapply Cla; eauto.
      - apply parent_lt in P; auto. lia. }
    assert (S23 : sks h2 h3) by (apply (append_own_sks asort b t); rewrite E3; auto). pose proof (sks_trans _ _ _ S02 S23) as S03.
    pose proof (wf_kws _ _ (sks_kws _ _ S23) W2) as W3.
    assert (Fin3 : forall y, y = l \/ y = a -> box_of h' y = box_of h3 y).
    { destruct (transform_unfold _ _ _ _ _ _ _ Eb Gb) as (n2 & h3' & -> & E3' & Ch). rewrite E3 in E3'. injection E3' as <-.
      intros y Ey. destruct (o_kind ob) as [|p m|opb c d|ms] eqn:Kob; try destruct Sb0; [injection Ch as <-; reflexivity|].
      apply each_two in Ch. destruct Ch as (h4 & E4 & E5). assert (S34 : sks h3 h4) by (apply (transform_sks asort n2 c t); rewrite E4; auto).
      inversion Tb as [? o1 p1 m1 G1 K1|? o1 op1 a1 b1 pc pd G1 K1 Tc Td Eq1 Eq2]; subst; rewrite Gb0 in G1; injection G1 as <-; rewrite K1 in Kb; [discriminate|].
      injection Kb as <- <- <-. inversion NDb as [|? ? Nb _]; subst.
      assert (Out : forall z, In z (pc ++ pd) -> y <> z /\ ~ parent h0 y z).
      { intros z Iz. split.
        - intros <-. destruct Ey as [->| ->]; [apply (Inb l); auto; right; auto|apply (Dis a); auto; right; auto].
        - intro P. destruct Ey as [->| ->].
          + destruct P as (o2 & op2 & a2 & b2 & G2 & K2 & Ez). rewrite G in G2. injection G2 as <-. rewrite K in K2. injection K2 as <- <- <-.
            destruct Ez as [->| ->]; [apply (Dis a); auto; right; auto|auto].
          + apply (Dis z); [eapply Cla; eauto|right; auto]. }
      rewrite (tree_transform_box h0 d pd Td asort n2 t h4 h' (sks_trans _ _ _ S03 S34) (wf_kws _ _ (sks_kws _ _ S34) W3) E5 y).
      - apply (tree_transform_box h0 c pc Tc asort n2 t h3 h4 S03 W3 E4 y).
        + intro I. destruct (Out y) as [N _]; [apply in_app_iff; auto|auto].
        + intros z Iz P. apply (P0 _ _ _ S03) in P. destruct (Out z) as [_ N]; [apply in_app_iff; auto|auto].
      - intro I. destruct (Out y) as [N _]; [apply in_app_iff; auto|auto].
      - intros z Iz P. apply (P0 _ _ _ (sks_trans _ _ _ S03 S34)) in P. destruct (Out z) as [_ N]; [apply in_app_iff; auto|auto]. }
    destruct (proj2 (proj2 S23) _ _ Gl) as (ol3 & Gl3 & (_ & Kl3 & _)). rewrite Kl in Kl3.
    destruct (Cur ol3 op a b Gl3 Kl3) as (A & B' & BA & BB & Bx). rewrite B3 in BB. injection BB as <-.
    exists A, B. split; [rewrite Fin3; auto|]. split.
    + eapply last_seen_frame; [exact (sks_trans _ _ _ S1 S2)|apply T'; eauto| |reflexivity|exact L3].
      intros y I. rewrite Fr2, Fr1; auto.
    + rewrite Fin3 by auto. unfold box_of. rewrite Gl3, Kl3, Bx. reflexivity.
  - assert (Px : forall c, c = ax \/ c = bx -> parent h0 x c) by (intros c Ec; exists ox, opx, ax, bx; auto).
    apply in_app_iff in Ix. destruct Ix as [Ix|Ix].
    + destruct (IHa NDa asort n' t h1 h2 S01 W1 Ea x ox opx ax bx Ix Gx Kx) as (A & B & BA & L & Bx).
      assert (Iax : In ax pa) by (eapply Cla; [exact Ix|apply Px; auto]). exists A, B. rewrite (Fr3 ax Iax), (Fr3 x Ix). split; [exact BA|]. split; [|exact Bx].
      destruct (tree_sub _ _ _ Ta x bx Ix (Px bx (or_intror eq_refl))) as (q & Tq & Inc).
      eapply last_seen_frame; [exact S1|apply T'; eauto| | |exact L]; intros y I; apply Inc in I; [symmetry; apply Fr1; auto|apply Fr3; auto].
    + destruct (IHb NDb asort n' t h2 h' S02 W2 Eb x ox opx ax bx Ix Gx Kx) as (A & B & BA & L & Bx).
      exists A, B. split; [exact BA|]. split; [|exact Bx].
      destruct (tree_sub _ _ _ Tb x bx Ix (Px bx (or_intror eq_refl))) as (q & Tq & Inc).
      eapply last_seen_frame; [exact (sks_trans _ _ _ S1 S2)|apply T'; eauto| |reflexivity|exact L]. intros y I. apply Inc in I. rewrite Fr2, Fr1; auto.
Qed.

Section Reached.
  Variables (asort : list xr -> list nat) (cs : list call) (h : heap) (m : motion).
  Hypothesis R : run_prog asort cs empty_heap = Ok h.
  Let W : wf h. Proof. eapply wf_run_prog; eauto using wf_empty. Qed.
  Lemma reached_tree : forall l o, get h l = Some o -> is_shape (o_kind o) -> tree h l (parts h l).
  Proof. intros l o G S. apply (wf_tree h W (depth h) l o); auto. eapply get_depth; eauto. Qed.

  Theorem boxes_inside : forall l o h', get h l = Some o -> is_shape (o_kind o) -> NoDup (parts h l) -> apply_motion asort l m h = Ok h' ->
    forall x ox op a b, In x (parts h l) -> get h x = Some ox -> o_kind ox = KCsg op a b ->
    exists A B B', box_of h' a = Some A /\ last_seen asort h h' b B /\ box_of h' b = Some B' /\ box_of h' x = Some (csg_box asort op A B) /\
      (box_current asort h' x <-> csg_box asort op A B = csg_box asort op A B').
  Proof.
    intros l o h' G S ND M x ox op a b Ix Gx Kx. unfold apply_motion in M. destruct (motion_matrix m) as [t|]; [|discriminate].
    destruct (tree_boxes h l (parts h l) (reached_tree l o G S) ND asort (depth h) t h h' (sks_refl h) W M x ox op a b Ix Gx Kx) as (A & B & BA & L & Bx).
    assert (Sk : sks h h') by (apply (transform_sks asort (depth h) l t); rewrite M; auto).
    destruct (proj2 (proj2 Sk) _ _ Gx) as (ox' & Gx' & (_ & Kx' & _)). rewrite Kx in Kx'.
    assert (BB : exists B', box_of h' b = Some B').
    { pose proof (W x ox Gx) as X. unfold wfx in X. rewrite Kx in X. destruct X as (_ & _ & _ & _ & (ob & Gb & Sb & _)).
      destruct (proj2 (proj2 Sk) _ _ Gb) as (ob' & Gb' & (_ & Kb' & _)). unfold box_of. rewrite Gb', Kb'. destruct (o_kind ob); try destruct Sb; eauto. }
    destruct BB as (B' & BB). exists A, B, B'. repeat (split; [assumption|]).
    assert (OB : o_box ox' = csg_box asort op A B) by (unfold box_of in Bx; rewrite Gx', Kx' in Bx; congruence). split.
    - intro C. destruct (C ox' op a b Gx' Kx') as (A2 & B2 & E1 & E2 & E3). congruence.
    - intros E o2 op2 a2 b2 G2 K2. rewrite Gx' in G2. injection G2 as <-. rewrite Kx' in K2. injection K2 as <- <- <-. exists A, B'. repeat split; auto. congruence.
  Qed.
  Theorem boxes_outside : forall l o h', get h l = Some o -> is_shape (o_kind o) -> apply_motion asort l m h = Ok h' ->
    forall x, ~ In x (parts h l) -> (forall ox op a b, get h x = Some ox -> o_kind ox = KCsg op a b -> ~ In a (parts h l) /\ ~ In b (parts h l)) ->
    box_of h' x = box_of h x.
  Proof.
    intros l o h' G S M x Nx NP. unfold apply_motion in M. destruct (motion_matrix m) as [t|]; [|discriminate].
    apply (tree_transform_box h l (parts h l) (reached_tree l o G S) asort (depth h) t h h' (sks_refl h) W M); auto.
    intros c Ic (ox & op & a & b & Gx & Kx & E). destruct (NP ox op a b Gx Kx) as (N1 & N2). destruct E; subst; auto.
  Qed.
  Theorem operand_moved : forall y oy op a b l h', get h y = Some oy -> o_kind oy = KCsg op a b -> NoDup (parts h y) -> l = a \/ l = b ->
    apply_motion asort l m h = Ok h' ->
    exists A B, box_of h' y = Some (csg_box asort op A B) /\
      (l = a -> last_seen asort h h' a A /\ box_of h b = Some B) /\ (l = b -> box_of h a = Some A /\ last_seen asort h h' b B).
  Proof.
    intros y oy op a b l h' Gy Ky ND El M. unfold apply_motion in M. destruct (motion_matrix m) as [t|]; [|discriminate].
    assert (Ty : tree h y (parts h y)) by (apply (reached_tree y oy Gy); rewrite Ky; exact I). set (ps := parts h y) in *. clearbody ps.
    inversion Ty as [? o1 p1 m1 G1 K1|? o1 op1 a1 b1 pa pb G1 K1 Ta Tb Eq1 Eq2]; subst; rewrite Gy in G1; injection G1 as <-; rewrite Ky in K1; [discriminate|].
    injection K1 as <- <- <-. inversion ND as [|? ? Ny NDab]; subst. apply NoDup_app_inv in NDab. destruct NDab as (NDa & NDb & Dis).
    pose proof (tree_self _ _ _ Ta) as Iaa. pose proof (tree_self _ _ _ Tb) as Ibb.
    assert (Tl : exists pl, tree h l pl /\ NoDup pl /\ incl pl (pa ++ pb) /\ (l = a -> pl = pa) /\ (l = b -> pl = pb)).
    { destruct El as [->| ->]; [exists pa|exists pb]; (split; [assumption|]); (split; [assumption|]); (split; [intros z Iz; apply in_app_iff; auto|]);
        split; intro E; auto; exfalso; [apply (Dis a)|apply (Dis b)]; solve [assumption|rewrite E; assumption]. }
    destruct Tl as (pl & Tl & NDl & Inc & Ela & Elb). destruct (tree_shape _ _ _ Tl) as (ol & Gl & Sl).
    destruct (transform_seen asort _ l t h h' ol W M Gl Sl) as (h3 & X & E3 & B3 & L3).
    assert (S3 : sks h h3) by (apply (append_own_sks asort l t); rewrite E3; auto). pose proof (wf_kws _ _ (sks_kws _ _ S3) W) as W3.
    assert (Cl : forall d, d = a \/ d = b -> ~ parent h d l).
    { intros d Ed P. destruct El as [->| ->], Ed as [->| ->].
      - apply parent_lt in P; auto. lia.
      - apply (Dis a); auto. eapply tree_closed; eauto.
      - apply (Dis b); auto. eapply tree_closed; eauto.
      - apply parent_lt in P; auto. lia. }
    assert (Cur : box_current asort h3 y) by (apply (append_parent asort l t h h3 y oy op a b ol); auto).
    assert (Other : forall d, d = a \/ d = b -> d <> l -> box_of h3 d = box_of h d) by (intros d Ed Nd; eapply append_own_box; eauto).
    assert (Fin3 : box_of h' y = box_of h3 y).
    { destruct (transform_unfold _ _ _ _ _ _ _ M Gl) as (n2 & h3' & _ & E3' & Ch). rewrite E3 in E3'. injection E3' as <-.
      destruct (o_kind ol) as [|p mm|opb c d|ms] eqn:Kol; try destruct Sl; [injection Ch as <-; reflexivity|].
      apply each_two in Ch. destruct Ch as (h4 & E4 & E5). assert (S34 : sks h3 h4) by (apply (transform_sks asort n2 c t); rewrite E4; auto).
      inversion Tl as [? o1 p1 m1 G1 K1|? o1 op1 a1 b1 pc pd G1 K1 Tc Td Eq1 Eq2]; subst; rewrite Gl in G1; injection G1 as <-; rewrite Kol in K1; [discriminate|].
      injection K1 as <- <- <-. inversion NDl as [|? ? Nb _]; subst.
      assert (Out : forall z, In z (pc ++ pd) -> y <> z /\ ~ parent h y z).
      { intros z Iz. assert (Iz' : In z (pa ++ pb)) by (apply Inc; right; auto). split; [intros <-; auto|].
        intros (o2 & op2 & a2 & b2 & G2 & K2 & Ez). rewrite Gy in G2. injection G2 as <-. rewrite Ky in K2. injection K2 as <- <- <-.
        destruct El as [->| ->], Ez as [->| ->]; auto.
        - specialize (Ela eq_refl). apply (Dis b); auto. rewrite <- Ela. right; auto.
        - specialize (Elb eq_refl). apply (Dis a); auto. rewrite <- Elb. right; auto. }
      assert (P0 : forall hh z, sks h hh -> parent hh y z -> parent h y z) by (intros hh z Sh; apply parent_kws_back, sks_kws, Sh).
      rewrite (tree_transform_box h d pd Td asort n2 t h4 h' (sks_trans _ _ _ S3 S34) (wf_kws _ _ (sks_kws _ _ S34) W3) E5 y).
      - apply (tree_transform_box h c pc Tc asort n2 t h3 h4 S3 W3 E4 y).
        + intro J. destruct (Out y) as [N _]; [apply in_app_iff; auto|auto].
        + intros z Iz P. apply (P0 _ _ S3) in P. destruct (Out z) as [_ N]; [apply in_app_iff; auto|auto].
      - intro J. destruct (Out y) as [N _]; [apply in_app_iff; auto|auto].
      - intros z Iz P. apply (P0 _ _ (sks_trans _ _ _ S3 S34)) in P. destruct (Out z) as [_ N]; [apply in_app_iff; auto|auto]. }
    destruct (proj2 (proj2 S3) _ _ Gy) as (oy3 & Gy3 & (_ & Ky3 & _)). rewrite Ky in Ky3. destruct (Cur oy3 op a b Gy3 Ky3) as (A & B & BA & BB & Bx).
    exists A, B. split; [rewrite Fin3; unfold box_of; rewrite Gy3, Ky3, Bx; reflexivity|].
    assert (Nab : a <> b) by (intros ->; apply (Dis b); auto). split; intros ->.
    - rewrite BA in B3. injection B3 as <-. split; [exact L3|]. rewrite <- Other; auto.
    - rewrite BB in B3. injection B3 as <-. split; [|exact L3]. rewrite <- Other; auto.
  Qed.
  Theorem deeper_moved : forall y oy op a b l o h', get h y = Some oy -> o_kind oy = KCsg op a b -> NoDup (parts h y) -> In l (parts h y) -> get h l = Some o ->
    l <> y -> l <> a -> l <> b -> apply_motion asort l m h = Ok h' -> box_of h' y = box_of h y.
  Proof.
    intros y oy op a b l o h' Gy Ky ND Il Gl Ny Na Nb M.
    assert (Ty : tree h y (parts h y)) by (apply (reached_tree y oy Gy); rewrite Ky; exact I). set (ps := parts h y) in *. clearbody ps.
    inversion Ty as [? o1 p1 m1 G1 K1|? o1 op1 a1 b1 pa pb G1 K1 Ta Tb Eq1 Eq2]; subst; rewrite Gy in G1; injection G1 as <-; rewrite Ky in K1; [discriminate|].
    injection K1 as <- <- <-. inversion ND as [|? ? Nyy NDab]; subst. apply NoDup_app_inv in NDab. destruct NDab as (NDa & NDb & Dis).
    assert (Sub : forall q qs, tree h q qs -> forall z, In z qs -> z <> q -> exists pz, tree h z pz /\ incl pz qs /\ forall v, In v pz -> (v < q)%nat).
    { clear - W. intros q qs T. 
      assert (Le : forall v vs, tree h v vs -> forall u, In u vs -> (u <= v)%nat).
      { intros v vs Tv. induction Tv as [v o p mm G K|v o op a b pa pb G K Ta IHa Tb IHb]; intros u I.
        - destruct I as [<-|[]]; auto.
        - pose proof (W v o G) as X. unfold wfx in X. rewrite K in X. destruct X as (_ & La & Lb & _). destruct I as [<-|I]; auto.
          apply in_app_iff in I. destruct I as [I|I]; [apply IHa in I|apply IHb in I]; lia. }
      induction T as [q o p mm G K|q o op a b pa pb G K Ta IHa Tb IHb]; intros z I N.
      - destruct I as [<-|[]]; congruence.
      - pose proof (W q o G) as X. unfold wfx in X. rewrite K in X. destruct X as (_ & La & Lb & _). destruct I as [<-|I]; [congruence|].
        apply in_app_iff in I. destruct I as [I|I].
        + destruct (Nat.eq_dec z a) as [->|Nz].
          * exists pa. split; [exact Ta|]. split; [intros v Iv; right; apply in_app_iff; auto|]. intros v Iv. apply (Le a pa Ta) in Iv. lia.
          * destruct (IHa z I Nz) as (pz & T1 & T2 & T3). exists pz. split; [exact T1|]. split; [intros v Iv; right; apply in_app_iff; auto|]. intros v Iv. apply T3 in Iv. lia.
        + destruct (Nat.eq_dec z b) as [->|Nz].
          * exists pb. split; [exact Tb|]. split; [intros v Iv; right; apply in_app_iff; auto|]. intros v Iv. apply (Le b pb Tb) in Iv. lia.
          * destruct (IHb z I Nz) as (pz & T1 & T2 & T3). exists pz. split; [exact T1|]. split; [intros v Iv; right; apply in_app_iff; auto|]. intros v Iv. apply T3 in Iv. lia. }
    pose proof (tree_self _ _ _ Ta) as Iaa. pose proof (tree_self _ _ _ Tb) as Ibb.
    assert (Ex : exists pl, tree h l pl /\ ~ In y pl /\ ~ In a pl /\ ~ In b pl).
    { destruct Il as [X|Il]; [congruence|]. apply in_app_iff in Il. destruct Il as [Il|Il].
      - destruct (Sub a pa Ta l Il Na) as (pl & T1 & T2 & T3). exists pl. split; [exact T1|]. split; [intro J; apply Nyy, in_app_iff; auto|].
        split; [intro J; apply T3 in J; lia|]. intro J. apply (Dis b); auto.
      - destruct (Sub b pb Tb l Il Nb) as (pl & T1 & T2 & T3). exists pl. split; [exact T1|]. split; [intro J; apply Nyy, in_app_iff; auto|].
        split; [intro J; apply (Dis a); auto|]. intro J. apply T3 in J. lia. }
    destruct Ex as (pl & Tl & N1 & N2 & N3). unfold apply_motion in M. destruct (motion_matrix m) as [t|]; [|discriminate].
    apply (tree_transform_box h l pl Tl asort (depth h) t h h' (sks_refl h) W M); auto.
    intros c Ic (o2 & op2 & a2 & b2 & G2 & K2 & Ez). rewrite Gy in G2. injection G2 as <-. rewrite Ky in K2. injection K2 as <- <- <-. destruct Ez; subst; auto.
  Qed.
End Reached.
