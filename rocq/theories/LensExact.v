(** * LensExact: which solid biconvex_lens makes, and when it is the one asked for *)
From Coq Require Import Reals Lra Lia List Bool ZArith Psatz.
Import ListNotations.
From Verif Require Import XR XRFacts Arr Lin LinFacts Prim Csg Surf SpecGeom SpecTree CsgProps World SpecWorld
  WorldFacts3 WorldFacts5 WorldProps Components SpecComponents BuildFacts ComponentFacts ComponentFacts2 SpecLens.
Open Scope R_scope.

Lemma built_two : forall asort o (P Q : shape -> Prop), built asort o P -> built asort o Q -> built asort o (fun s => P s /\ Q s).
Proof.
  intros asort o P Q (prog & l & E & B) (prog' & l' & E' & B'). rewrite E in E'. injection E' as <- <-. exists prog, l. split; [exact E|]. intros h N.
  destruct (B h N) as (h' & s & R & Sh & TO & BC & K). destruct (B' h N) as (h2 & s2 & R2 & Sh2 & _ & _ & K2).
  rewrite R in R2. injection R2 as <-. rewrite Sh in Sh2. injection Sh2 as <-. exists h', s. auto 10.
Qed.

Lemma biconvex_is : forall asort r1 r2 t ap m, argsort_ok asort -> ap_ok ap -> 0 <= t -> r1 <> 0 -> r2 <> 0 ->
  built asort (biconvex_lens (Fin r1) (Fin r2) t ap m) (occupies (fun x y z =>
    in_aperture ap (0, 0) y z /\ - (t / 2) <= x <= t / 2 /\
    (x - (r1 - t / 2)) * (x - (r1 - t / 2)) + y * y + z * z <= r2 * r2 /\
    (x - (t / 2 - r1)) * (x - (t / 2 - r1)) + y * y + z * z <= r1 * r1)).
Proof.
  intros asort r1 r2 t ap m AO A T N1 N2. generalize (biconvex_region asort r1 r2 t ap m AO A T N1 N2). apply built_weaken.
  intros s O x y z. rewrite (O x y z). unfold in_ball. replace (- (r1 - t / 2)) with (t / 2 - r1) by ring.
  split; intros (H1 & H2 & H3 & H4); repeat split; auto; lra.
Qed.

Lemma centre_in : forall ap, ap_ok ap -> in_aperture ap (0, 0) 0 0.
Proof.
  intros [d|a b] A; simpl in *; [nra|]. rewrite Rminus_0_r, Rabs_R0. lra.
Qed.
Lemma near_in : forall ap, ap_ok ap -> exists h, 0 < h /\ forall y, 0 <= y <= h -> in_aperture ap (0, 0) y 0.
Proof.
  intros [d|a b] A; simpl in *.
  - exists (d / 2). split; [lra|]. intros y Y. nra.
  - exists (a / 2). split; [lra|]. intros y Y. rewrite !Rminus_0_r, Rabs_R0, Rabs_right; lra.
Qed.

Theorem biconvex_vertices : forall asort r1 r2 t ap m, argsort_ok asort -> ap_ok ap -> 0 < t -> r1 <> 0 -> r2 <> 0 ->
  built asort (biconvex_lens (Fin r1) (Fin r2) t ap m) (fun s =>
    inside s (pt (- (t / 2)) 0 0) /\ inside s (pt (t / 2) 0 0) <-> Rabs r1 <= Rabs r2 /\ t <= 2 * r1).
Proof.
  intros asort r1 r2 t ap m AO A T N1 N2. generalize (biconvex_is asort r1 r2 t ap m AO A ltac:(lra) N1 N2). apply built_weaken.
  intros s O. rewrite !(O _ _ _). pose proof (centre_in ap A) as C.
  assert (SQ : Rabs r1 <= Rabs r2 <-> r1 * r1 <= r2 * r2).
  { pose proof (Rabs_pos r1). pose proof (Rabs_pos r2). assert (E1 : Rabs r1 * Rabs r1 = r1 * r1) by (rewrite <- Rabs_mult; apply Rabs_right; nra).
    assert (E2 : Rabs r2 * Rabs r2 = r2 * r2) by (rewrite <- Rabs_mult; apply Rabs_right; nra). rewrite <- E1, <- E2. split; intro; nra. }
  rewrite SQ. split.
  - intros ((_ & _ & H1 & H2) & (_ & _ & H3 & H4)). split; nra.
  - intros (H1 & H2). assert (0 < r1) by lra. repeat split; auto; try lra; nra.
Qed.

Theorem biconvex_asked : forall asort r1 r2 t ap m, argsort_ok asort -> ap_ok ap -> 0 < t -> 0 < r1 -> 0 < r2 -> t < 2 * r1 ->
  reach ap <= r1 -> reach ap <= r2 -> front_reaches (Fin r1) (Fin (- r2)) t (reach ap) -> back_reaches (Fin r1) (Fin (- r2)) t (reach ap) ->
  built asort (biconvex_lens (Fin r1) (Fin r2) t ap m) (fun s => fills
    (fun x y z => in_aperture ap (0, 0) y z /\ lens_front (Fin r1) t (y * y + z * z) < x < lens_back (Fin (- r2)) t (y * y + z * z))
    (fun x y z => in_aperture ap (0, 0) y z /\ lens_front (Fin r1) t (y * y + z * z) <= x <= lens_back (Fin (- r2)) t (y * y + z * z)) s
    <-> r1 = r2).
Proof.
  intros asort r1 r2 t ap m AO A T P1 P2 TR R1 R2 FR BR.
  destruct (Req_dec r1 r2) as [<-|NE].
  { generalize (biconvex_solid asort r1 t ap m AO A ltac:(lra) R1 FR BR). apply built_weaken. intros s F. split; auto. }
  generalize (biconvex_is asort r1 r2 t ap m AO A ltac:(lra) ltac:(lra) ltac:(lra)). apply built_weaken. intros s O. split; [|contradiction].
  intro F. exfalso. assert (L1 : rltb 0 r1 = true) by (apply rltb_true; lra). assert (L2 : rltb 0 (- r2) = false) by (apply rltb_false; lra).
  destruct (Rlt_dec r1 r2) as [LT|GE].
  - destruct (near_in ap A) as (h & H & IN).
    set (y := Rmin h (Rmin ((r2 - r1) / 2) (t * (2 * r1 - t) / (4 * r1)))).
    assert (Y0 : 0 < y). { unfold y. repeat apply Rmin_glb_lt; auto; [lra|]. apply Rdiv_lt_0_compat; nra. }
    assert (Y1 : y <= h) by apply Rmin_l. assert (Y2 : y <= (r2 - r1) / 2) by (eapply Rle_trans; [apply Rmin_r|apply Rmin_l]).
    assert (Y3 : y * (4 * r1) <= t * (2 * r1 - t)).
    { assert (Q : y <= t * (2 * r1 - t) / (4 * r1)) by (eapply Rle_trans; [apply Rmin_r|apply Rmin_r]). apply (Rmult_le_compat_r (4 * r1)) in Q; [|lra]. replace (t * (2 * r1 - t) / (4 * r1) * (4 * r1)) with (t * (2 * r1 - t)) in Q by (field; lra). exact Q. }
    clearbody y. assert (YR : y <= r1). { assert (0 <= (r1 - t) * (r1 - t)) by apply Rle_0_sqr. apply Rnot_lt_le. intro. assert (r1 * (4 * r1) < y * (4 * r1)) by (apply Rmult_lt_compat_r; lra). nra. }
    assert (I : inside s (pt (- (t / 2)) y 0)).
    { apply O. split; [apply IN; lra|]. split; [lra|]. split; nra. }
    apply F in I. destruct I as (_ & I & _). unfold lens_front, sag in I. rewrite L1 in I.
    assert (SL : sqrt (r1 * r1 - (y * y + 0 * 0)) < r1).
    { apply Rlt_le_trans with (sqrt (r1 * r1)); [apply sqrt_lt_1_alt; nra|rewrite sqrt_square; lra]. }
    lra.
  - assert (GT : r2 < r1) by lra. set (e := Rmin ((r1 - r2) / 2) (t / 2)). assert (E0 : 0 < e) by (apply Rmin_glb_lt; lra).
    assert (E1 : e <= (r1 - r2) / 2) by apply Rmin_l. assert (E2 : e <= t / 2) by apply Rmin_r. clearbody e.
    assert (I : inside s (pt (e - t / 2) 0 0)).
    { apply F. split; [apply centre_in; exact A|]. unfold lens_front, lens_back, sag. rewrite L1, L2.
      replace (r1 * r1 - (0 * 0 + 0 * 0)) with (r1 * r1) by ring. replace (- r2 * - r2 - (0 * 0 + 0 * 0)) with (r2 * r2) by ring. rewrite !sqrt_square by lra. lra. }
    apply O in I. destruct I as (_ & _ & I & _). nra.
Qed.

(** ** thick_lens *)
Lemma full_thickness_any : forall r1 r2 t ap, ap_ok ap -> side_ok (fun r => r < 0) r1 (reach ap) -> side_ok (fun r => 0 < r) r2 (reach ap) ->
  lens_full_thickness r1 r2 t ap = Some (t / 2 + back_depth r2 (reach ap) + (t / 2 + front_depth r1 (reach ap)),
     t / 2 + back_depth r2 (reach ap) - (t / 2 + front_depth r1 (reach ap))).
Proof.
  intros r1 r2 t ap A R1 R2. pose proof (reach_pos ap A) as P. unfold lens_full_thickness. rewrite max_height_reach.
  assert (SQ : forall r, reach ap <= Rabs r -> np_sqrt (Rabs r * Rabs r - reach ap * reach ap) = Some (sqrt (Rabs r * Rabs r - reach ap * reach ap))).
  { intros r H. unfold np_sqrt. replace (rleb 0 _) with true; [reflexivity|]. symmetry. apply rleb_true. nra. }
  assert (S1 : side_thickness (fun r => rltb r 0) r1 t (reach ap) = Some (t / 2 + front_depth r1 (reach ap))).
  { destruct r1 as [r1| | |]; simpl in *; try (f_equal; lra). destruct (rltb r1 0) eqn:L; [|f_equal; lra]. apply rltb_true in L. rewrite SQ by tauto. reflexivity. }
  assert (S2 : side_thickness (fun r => rltb 0 r) r2 t (reach ap) = Some (t / 2 + back_depth r2 (reach ap))).
  { destruct r2 as [r2| | |]; simpl in *; try (f_equal; lra). destruct (rltb 0 r2) eqn:L; [|f_equal; lra]. apply rltb_true in L. rewrite SQ by tauto. reflexivity. }
  rewrite S1, S2. reflexivity.
Qed.
Lemma front_depth_any : forall r h, 0 <= h -> side_ok (fun r => r < 0) r h -> 0 <= front_depth r h.
Proof. intros [r| | |] h H0 H; simpl in *; try lra. destruct (rltb r 0) eqn:L; [apply rltb_true in L; apply side_depth_pos; tauto|lra]. Qed.
Lemma back_depth_any : forall r h, 0 <= h -> side_ok (fun r => 0 < r) r h -> 0 <= back_depth r h.
Proof. intros [r| | |] h H0 H; simpl in *; try lra. destruct (rltb 0 r) eqn:L; [apply rltb_true in L; apply side_depth_pos; tauto|lra]. Qed.

Lemma thick_lens_region_any : forall asort r1 r2 t ap m, argsort_ok asort -> ap_ok ap -> 0 <= t ->
  side_ok (fun r => r < 0) r1 (reach ap) -> side_ok (fun r => 0 < r) r2 (reach ap) ->
  built asort (thick_lens r1 r2 t ap m) (occupies (fun x y z =>
    in_aperture ap (0, 0) y z /\ - (t / 2 + front_depth r1 (reach ap)) <= x <= t / 2 + back_depth r2 (reach ap) /\
    front_part r1 t x (y * y + z * z) /\ back_part r2 t x (y * y + z * z))).
Proof.
  intros asort r1 r2 t ap m AO A T R1 R2. pose proof (reach_pos ap A) as P.
  pose proof (front_depth_any r1 (reach ap) ltac:(lra) R1) as F1. pose proof (back_depth_any r2 (reach ap) ltac:(lra) R2) as F2.
  unfold thick_lens. rewrite full_thickness_any by auto. set (D1 := front_depth r1 (reach ap)) in *. set (D2 := back_depth r2 (reach ap)) in *.
  set (th := t / 2 + D2 + (t / 2 + D1)). set (of := t / 2 + D2 - (t / 2 + D1)).
  destruct (create_aperture_ok ap th A) as (p & Ep). rewrite Ep. cbv zeta.
  assert (T0 : track [CSurface p m; CMotion 0 (op_move_z (of / 2))] [] = Some [Some (TLeaf p m (mmul (mmove 0 0 (of / 2)) mid) 1)]).
  { cbn [track track_call]. rewrite (aperture_init _ _ _ Ep). reflexivity. }
  destruct (lens_side_track (fun r => rltb 0 r) r1 (fun r => r - t / 2) m _ 0%nat _ _ T0 eq_refl eq_refl eq_refl) as (env1 & T1 & E1 & N1 & L1 & RL1 & P1 & G1).
  { simpl. split; [|apply affine_mmul; reflexivity]. eapply aperture_prim_ok; [exact A| |exact Ep]. unfold th. lra. }
  { intros r' ->. apply R1. }
  set (l1 := lens_side (fun r => rltb 0 r) r1 (fun r => r - t / 2) m _) in *. rewrite (surjective_pairing l1).
  destruct (lens_side_track (fun r => rltb r 0) r2 (fun r => r + t / 2) m _ _ _ _ E1 N1 L1 RL1 P1) as (env2 & T2 & E2 & N2 & L2 & RL2 & P2 & G2).
  { intros r' ->. apply R2. }
  eapply built_turned; [exact AO|exact E2|exact N2|exact RL2|exact P2|].
  intros s _ _ In x y z. rewrite In, G2, G1. clear In.
  assert (Ap : region (TLeaf p m (mmul (mmove 0 0 (of / 2)) mid) 1) (pt y z x) <-> in_aperture ap (0, 0) y z /\ - (t / 2 + D1) <= x <= t / 2 + D2).
  { rewrite leaf_moved. pose proof (aperture_solid ap th p (0, 0) y z (x - of / 2) A) as X. cbn [fst snd] in X. rewrite X by (auto; unfold th; lra).
    unfold th, of. split; intros [I B]; (split; [exact I|lra]). }
  rewrite Ap. unfold front_part, back_part. destruct r1, r2; tauto.
Qed.

Theorem thick_lens_is : forall asort r1 r2 t ap m, argsort_ok asort -> ap_ok ap -> 0 <= t ->
  side_ok (fun r => r < 0) r1 (reach ap) -> side_ok (fun r => 0 < r) r2 (reach ap) ->
  built asort (thick_lens r1 r2 t ap m) (occupies (fun x y z =>
    in_aperture ap (0, 0) y z /\ - (t / 2 + front_rim r1 (reach ap)) <= x <= t / 2 + back_rim r2 (reach ap) /\
    behind_front r1 t x y z /\ before_back r2 t x y z)).
Proof.
  intros asort r1 r2 t ap m AO A T R1 R2. generalize (thick_lens_region_any asort r1 r2 t ap m AO A T R1 R2). apply built_weaken.
  intros s O x y z. rewrite (O x y z).
  assert (F : front_part r1 t x (y * y + z * z) <-> behind_front r1 t x y z).
  { destruct r1 as [r| | |]; simpl; try tauto. unfold in_ball. destruct (rltb 0 r); cbv zeta; split; intro; try lra. }
  assert (B : back_part r2 t x (y * y + z * z) <-> before_back r2 t x y z).
  { destruct r2 as [r| | |]; simpl; try tauto. unfold in_ball. destruct (rltb r 0); cbv zeta; split; intro; try lra. }
  rewrite F, B. reflexivity.
Qed.

Theorem thick_lens_asked : forall asort r1 r2 t ap m, argsort_ok asort -> ap_ok ap -> 0 <= t ->
  radius_ok r1 (reach ap) -> radius_ok r2 (reach ap) ->
  built asort (thick_lens r1 r2 t ap m) (fun s => fills
    (fun x y z => in_aperture ap (0, 0) y z /\ lens_front r1 t (y * y + z * z) < x < lens_back r2 t (y * y + z * z) /\
       before_far_front r1 t (y * y + z * z) x /\ after_far_back r2 t (y * y + z * z) x)
    (fun x y z => in_aperture ap (0, 0) y z /\ lens_front r1 t (y * y + z * z) <= x <= lens_back r2 t (y * y + z * z) /\
       before_far_front r1 t (y * y + z * z) x /\ after_far_back r2 t (y * y + z * z) x) s).
Proof.
  intros asort r1 r2 t ap m AO A T R1 R2. generalize (thick_lens_region asort r1 r2 t ap m AO A T R1 R2). apply built_weaken.
  intros s Oc. pose proof (reach_pos ap A) as P. intros x y z. rewrite (Oc x y z). clear - A T R1 R2 P.
  assert (Q : in_aperture ap (0, 0) y z -> 0 <= y * y + z * z <= reach ap * reach ap) by (apply aperture_reach; exact A).
  set (q := y * y + z * z) in *. set (h := reach ap) in *. split.
  - intros (I & (F & K) & FF & FB). specialize (Q I). split; [exact I|]. split.
    + split.
      * destruct r1 as [r1| | |]; simpl in R1; try contradiction; [|unfold lens_front, sag, front_depth in *; lra..].
        pose proof (front_room r1 t q h ltac:(tauto) ltac:(lra) ltac:(tauto) Q). unfold front_depth. lra.
      * destruct r2 as [r2| | |]; simpl in R2; try contradiction; [|unfold lens_back, sag, back_depth in *; lra..].
        pose proof (back_room r2 t q h ltac:(tauto) ltac:(lra) ltac:(tauto) Q). unfold back_depth. lra.
    + split.
      * destruct r1 as [r1| | |]; simpl in R1; try contradiction; [|exact Logic.I..]. unfold front_part, in_ball. apply (front_in r1 t q x h); try tauto; try lra.
        intros Pr. exact (FF r1 eq_refl Pr).
      * destruct r2 as [r2| | |]; simpl in R2; try contradiction; [|exact Logic.I..]. unfold back_part, in_ball. apply (back_in r2 t q x h); try tauto; try lra.
        intros Pr. exact (FB r2 eq_refl Pr).
  - intros (I & [X1 X2] & F & K). specialize (Q I). split; [exact I|]. split; [split|split].
    + destruct r1 as [r1| | |]; simpl in R1; try contradiction; [|unfold lens_front, sag, front_depth in *; lra..].
      apply (front_out r1 t q x h); try tauto; try lra. intros Ng. apply rltb_true in Ng. unfold front_depth in X1. rewrite Ng in X1. exact X1.
    + destruct r2 as [r2| | |]; simpl in R2; try contradiction; [|unfold lens_back, sag, back_depth in *; lra..].
      apply (back_out r2 t q x h); try tauto; try lra. intros Ng. apply rltb_true in Ng. unfold back_depth in X2. rewrite Ng in X2. exact X2.
    + intros r -> Pr. simpl in R1. apply rltb_true in Pr. unfold front_part, in_ball in F. rewrite Pr in F.
      pose proof (room r q h ltac:(lra) ltac:(tauto) ltac:(lra)). rewrite ball_iff in F by lra. lra.
    + intros r -> Pr. simpl in R2. apply rltb_true in Pr. unfold back_part, in_ball in K. rewrite Pr in K.
      pose proof (room r q h ltac:(lra) ltac:(tauto) ltac:(lra)). rewrite ball_iff in K by lra. lra.
Qed.

Theorem thick_lens_iff : forall asort r1 r2 t ap m, argsort_ok asort -> ap_ok ap -> 0 <= t ->
  radius_ok r1 (reach ap) -> radius_ok r2 (reach ap) ->
  built asort (thick_lens r1 r2 t ap m) (fun s => fills
    (fun x y z => in_aperture ap (0, 0) y z /\ lens_front r1 t (y * y + z * z) < x < lens_back r2 t (y * y + z * z))
    (fun x y z => in_aperture ap (0, 0) y z /\ lens_front r1 t (y * y + z * z) <= x <= lens_back r2 t (y * y + z * z)) s
    <-> (forall y z, in_aperture ap (0, 0) y z -> lens_front r1 t (y * y + z * z) < lens_back r2 t (y * y + z * z) ->
           before_far_front r1 t (y * y + z * z) (lens_back r2 t (y * y + z * z)) /\
           after_far_back r2 t (y * y + z * z) (lens_front r1 t (y * y + z * z)))).
Proof.
  intros asort r1 r2 t ap m AO A T R1 R2. generalize (thick_lens_asked asort r1 r2 t ap m AO A T R1 R2). apply built_weaken.
  intros s Fx. split.
  - intros F y z I L. set (q := y * y + z * z) in *. split; intros r E Pr; apply Rnot_lt_le; intro Bad.
    + set (c := r + sqrt (r * r - q) - t / 2) in *. set (a := Rmax (lens_front r1 t q) c).
      assert (a < lens_back r2 t q) by (apply Rmax_lub_lt; assumption). assert (lens_front r1 t q <= a) by apply Rmax_l. assert (c <= a) by apply Rmax_r. clearbody a.
      assert (J : inside s (pt ((a + lens_back r2 t q) / 2) y z)) by (apply F; split; [exact I|]; fold q; lra).
      apply Fx in J. destruct J as (_ & _ & J & _). specialize (J r E Pr). fold q in J. fold c in J. lra.
    + set (c := r - sqrt (r * r - q) + t / 2) in *. set (a := Rmin (lens_back r2 t q) c).
      assert (lens_front r1 t q < a) by (apply Rmin_glb_lt; assumption). assert (a <= lens_back r2 t q) by apply Rmin_l. assert (a <= c) by apply Rmin_r. clearbody a.
      assert (J : inside s (pt ((a + lens_front r1 t q) / 2) y z)) by (apply F; split; [exact I|]; fold q; lra).
      apply Fx in J. destruct J as (_ & _ & _ & J). specialize (J r E Pr). fold q in J. fold c in J. lra.
  - intros G x y z. destruct (Fx x y z) as (F1 & F2). split.
    + intros (I & L). apply F1. split; [exact I|]. split; [exact L|]. destruct (G y z I ltac:(lra)) as (G1 & G2). split; intros r E Pr.
      * specialize (G1 r E Pr). lra.
      * specialize (G2 r E Pr). lra.
    + intros J. apply F2 in J. tauto.
Qed.
