(** * ComponentFacts2: the other lenses, the mirrors and the prism *)
From Coq Require Import Reals Lra Lia List Bool ZArith Psatz.
Import ListNotations.
From Verif Require Import XR XRFacts Arr Lin LinFacts Prim Csg Surf SpecGeom SpecTree CsgProps World SpecWorld
  WorldFacts3 WorldFacts5 WorldProps Components SpecComponents BuildFacts ComponentFacts.
Open Scope R_scope.

Lemma move_matrix : forall x y z, motion_matrix (Move x y z) = Some (mmove x y z).
Proof. reflexivity. Qed.
Lemma built_weaken : forall asort o (P Q : shape -> Prop), (forall s, P s -> Q s) -> built asort o P -> built asort o Q.
Proof.
  intros asort o P Q I (prog & l & E & B). exists prog, l. split; [exact E|]. intros h N.
  destruct (B h N) as (h' & s & R & Sh & TO & BC & K). exists h', s. auto 10.
Qed.
Ltac trk := cbn [track track_call prim_init nth_error Nat.eqb set_nth app op_move_z motion_matrix mv inv]; reflexivity.

(** ** biconvex_lens *)
Lemma biconvex_region : forall asort r1 r2 t ap m, argsort_ok asort -> ap_ok ap -> 0 <= t -> r1 <> 0 -> r2 <> 0 ->
  built asort (biconvex_lens (Fin r1) (Fin r2) t ap m) (occupies (fun x y z =>
    in_aperture ap (0, 0) y z /\ - (t / 2) <= x <= t / 2 /\
    in_ball r2 (r1 - t / 2) x (y * y + z * z) /\ in_ball r1 (- (r1 - t / 2)) x (y * y + z * z))).
Proof.
  intros asort r1 r2 t ap m AO A T N1 N2. unfold biconvex_lens. destruct (create_aperture_ok ap t A) as (p & Ep). rewrite Ep.
  set (T2 := TLeaf (PSphere r2) m (mmul (mmove 0 0 (r1 - t / 2)) mid) 1).
  set (T1 := TLeaf (PSphere r1) m (mmul (mmove 0 0 (- (r1 - t / 2))) mid) 1).
  eapply (built_turned asort _ _ _ (TNode INTERSECT (TNode INTERSECT T2 T1) (TLeaf p m mid 1))); [exact AO|cbn [track track_call]; rewrite (aperture_init _ _ _ Ep); trk|reflexivity|reflexivity| |].
  - simpl. repeat split; auto; try (apply affine_mmul; reflexivity). eapply aperture_prim_ok; eauto.
  - intros s _ _ In x y z. rewrite In. clear In.
    assert (Ap : region (TLeaf p m mid 1) (pt y z x) <-> in_aperture ap (0, 0) y z /\ - (t / 2) <= x <= t / 2).
    { rewrite leaf_mid. pose proof (aperture_solid ap t p (0, 0) y z x A T Ep) as X. cbn [fst snd] in X. rewrite !Rminus_0_r in X. exact X. }
    assert (B2 : region T2 (pt y z x) <-> in_ball r2 (r1 - t / 2) x (y * y + z * z)).
    { unfold T2. rewrite leaf_moved. unfold solid, in_ball, pt; cbn [vx vy vz]. rewrite !Rminus_0_r. tauto. }
    assert (B1 : region T1 (pt y z x) <-> in_ball r1 (- (r1 - t / 2)) x (y * y + z * z)).
    { unfold T1. rewrite leaf_moved. unfold solid, in_ball, pt; cbn [vx vy vz]. rewrite !Rminus_0_r. tauto. }
    change (region (TNode INTERSECT (TNode INTERSECT T2 T1) (TLeaf p m mid 1)) (pt y z x)) with ((region T2 (pt y z x) /\ region T1 (pt y z x)) /\ region (TLeaf p m mid 1) (pt y z x)).
    rewrite Ap, B1, B2. tauto.
Qed.
(** with equal positive radii it is the thick lens with these surfaces *)
Lemma biconvex_solid : forall asort r t ap m, argsort_ok asort -> ap_ok ap -> 0 <= t -> reach ap <= r ->
  front_reaches (Fin r) (Fin (- r)) t (reach ap) -> back_reaches (Fin r) (Fin (- r)) t (reach ap) ->
  built asort (biconvex_lens (Fin r) (Fin r) t ap m) (fills
    (fun x y z => in_aperture ap (0, 0) y z /\ lens_front (Fin r) t (y * y + z * z) < x < lens_back (Fin (- r)) t (y * y + z * z))
    (fun x y z => in_aperture ap (0, 0) y z /\ lens_front (Fin r) t (y * y + z * z) <= x <= lens_back (Fin (- r)) t (y * y + z * z))).
Proof.
  intros asort r t ap m AO A T Rr FR BR. pose proof (reach_pos ap A) as P.
  eapply built_weaken; [|apply (biconvex_region asort r r t ap m); auto; lra].
  intros s Oc x y z. rewrite (Oc x y z). clear Oc s.
  assert (Q : in_aperture ap (0, 0) y z -> 0 <= y * y + z * z <= reach ap * reach ap) by (apply aperture_reach; exact A).
  set (q := y * y + z * z) in *. set (h := reach ap) in *.
  assert (P1 : rltb 0 r = true) by (apply rltb_true; lra). assert (P2 : rltb (- r) 0 = true) by (apply rltb_true; lra).
  assert (Ab : Rabs r = r) by (apply Rabs_right; lra). assert (Ab' : Rabs (- r) = r) by (rewrite Rabs_Ropp; auto).
  assert (EQ : in_ball r (- (r - t / 2)) x q <-> in_ball (- r) (- r + t / 2) x q).
  { unfold in_ball. replace (- (r - t / 2)) with (- r + t / 2) by ring. replace (- r * - r) with (r * r) by ring. tauto. }
  rewrite EQ. unfold in_ball. split.
  - intros (I & F). specialize (Q I). split; [exact I|].
    pose proof (front_room r t q h ltac:(lra) ltac:(lra) ltac:(lra) Q) as FRm. pose proof (back_room (- r) t q h ltac:(lra) ltac:(lra) ltac:(lra) Q) as BRm.
    assert (N1 : rltb r 0 = false) by (apply rltb_false; lra). assert (N2 : rltb 0 (- r) = false) by (apply rltb_false; lra).
    rewrite N1 in FRm. rewrite N2 in BRm. split; [lra|]. split.
    + pose proof (front_in r t q x h) as X. rewrite P1 in X. apply X; try lra. intros _. specialize (FR r eq_refl ltac:(lra) q Q). lra.
    + pose proof (back_in (- r) t q x h) as X. rewrite P2 in X. apply X; try lra. intros _. specialize (BR (- r) eq_refl ltac:(lra) q Q). lra.
  - intros (I & X12 & F & K). specialize (Q I). split; [exact I|]. split.
    + apply (front_out r t q x h); try lra. rewrite P1. exact F.
    + apply (back_out (- r) t q x h); try lra. rewrite P2. exact K.
Qed.

(** ** plano_convex_lens *)
Lemma plano_region : forall asort r t ap m, argsort_ok asort -> ap_ok ap -> 0 <= t -> r <> 0 ->
  built asort (plano_convex_lens (Fin r) t ap m) (occupies (fun x y z =>
    in_aperture ap (0, 0) y z /\ - (t / 2) <= x <= t / 2 /\ in_ball r (- (r - t / 2)) x (y * y + z * z))).
Proof.
  intros asort r t ap m AO A T N1. unfold plano_convex_lens. destruct (create_aperture_ok ap t A) as (p & Ep). rewrite Ep.
  set (T1 := TLeaf (PSphere r) m (mmul (mmove 0 0 (- (r - t / 2))) mid) 1).
  eapply (built_turned asort _ _ _ (TNode INTERSECT T1 (TLeaf p m mid 1))); [exact AO|cbn [track track_call]; rewrite (aperture_init _ _ _ Ep); trk|reflexivity|reflexivity| |].
  - simpl. repeat split; auto; try (apply affine_mmul; reflexivity). eapply aperture_prim_ok; eauto.
  - intros s _ _ In x y z. rewrite In. clear In.
    assert (Ap : region (TLeaf p m mid 1) (pt y z x) <-> in_aperture ap (0, 0) y z /\ - (t / 2) <= x <= t / 2).
    { rewrite leaf_mid. pose proof (aperture_solid ap t p (0, 0) y z x A T Ep) as X. cbn [fst snd] in X. rewrite !Rminus_0_r in X. exact X. }
    assert (B1 : region T1 (pt y z x) <-> in_ball r (- (r - t / 2)) x (y * y + z * z)).
    { unfold T1. rewrite leaf_moved. unfold solid, in_ball, pt; cbn [vx vy vz]. rewrite !Rminus_0_r. tauto. }
    change (region (TNode INTERSECT T1 (TLeaf p m mid 1)) (pt y z x)) with (region T1 (pt y z x) /\ region (TLeaf p m mid 1) (pt y z x)).
    rewrite Ap, B1. tauto.
Qed.
Lemma plano_solid : forall asort r t ap m, argsort_ok asort -> ap_ok ap -> 0 <= t -> reach ap <= r ->
  back_reaches PInf (Fin (- r)) t (reach ap) ->
  built asort (plano_convex_lens (Fin r) t ap m) (fills
    (fun x y z => in_aperture ap (0, 0) y z /\ lens_front PInf t (y * y + z * z) < x < lens_back (Fin (- r)) t (y * y + z * z))
    (fun x y z => in_aperture ap (0, 0) y z /\ lens_front PInf t (y * y + z * z) <= x <= lens_back (Fin (- r)) t (y * y + z * z))).
Proof.
  intros asort r t ap m AO A T Rr BR. pose proof (reach_pos ap A) as P.
  eapply built_weaken; [|apply (plano_region asort r t ap m); auto; lra].
  intros s Oc x y z. rewrite (Oc x y z). clear Oc s.
  assert (Q : in_aperture ap (0, 0) y z -> 0 <= y * y + z * z <= reach ap * reach ap) by (apply aperture_reach; exact A).
  set (q := y * y + z * z) in *. set (h := reach ap) in *.
  assert (P2 : rltb (- r) 0 = true) by (apply rltb_true; lra).
  assert (Ab' : Rabs (- r) = r) by (rewrite Rabs_Ropp; apply Rabs_right; lra).
  assert (EQ : in_ball r (- (r - t / 2)) x q <-> in_ball (- r) (- r + t / 2) x q).
  { unfold in_ball. replace (- (r - t / 2)) with (- r + t / 2) by ring. replace (- r * - r) with (r * r) by ring. tauto. }
  assert (LF : lens_front PInf t q = - (t / 2)) by (unfold lens_front, sag; lra). rewrite EQ, LF. unfold in_ball. split.
  - intros (I & F). specialize (Q I). split; [exact I|].
    pose proof (back_room (- r) t q h ltac:(lra) ltac:(lra) ltac:(lra) Q) as BRm.
    assert (N2 : rltb 0 (- r) = false) by (apply rltb_false; lra). rewrite N2 in BRm. split; [lra|].
    pose proof (back_in (- r) t q x h) as X. rewrite P2 in X. apply X; try lra. intros _. specialize (BR (- r) eq_refl ltac:(lra) q Q). lra.
  - intros (I & X12 & K). specialize (Q I). split; [exact I|]. split; [lra|].
    apply (back_out (- r) t q x h); try lra. rewrite P2. exact K.
Qed.

(** ** plane_mirror *)
Lemma plane_mirror_solid : forall asort t ap off m, argsort_ok asort -> ap_ok ap -> 0 <= t ->
  built asort (plane_mirror t ap off m) (occupies (fun x y z => in_aperture ap off y z /\ - (t / 2) <= x <= t / 2)).
Proof.
  intros asort t ap off m AO A T. unfold plane_mirror. destruct (create_aperture_ok ap t A) as (p & Ep). rewrite Ep.
  eapply (built_turned asort _ _ _ (TLeaf p m (mmul (mmove (fst off) (snd off) 0) mid) 1)); [exact AO|cbn [track track_call]; rewrite (aperture_init _ _ _ Ep); trk|reflexivity|reflexivity| |].
  - simpl. split; [eapply aperture_prim_ok; eauto|apply affine_mmul; reflexivity].
  - intros s _ _ In x y z. rewrite In, leaf_moved, Rminus_0_r. apply aperture_solid; auto.
Qed.

(** ** spherical_mirror *)
Lemma norm2_tri : forall a b c d, sqrt ((a + c) * (a + c) + (b + d) * (b + d)) <= sqrt (a * a + b * b) + sqrt (c * c + d * d).
Proof.
  intros a b c d. pose proof (sqrt_pos (a * a + b * b)) as P1. pose proof (sqrt_pos (c * c + d * d)) as P2.
  apply Rsqr_incr_0; [|apply sqrt_pos|lra]. unfold Rsqr. rewrite sqrt_sqrt by (apply Rplus_le_le_0_compat; apply Rle_0_sqr).
  assert (S1 := sqrt_sqrt (a * a + b * b) ltac:(nra)). assert (S2 := sqrt_sqrt (c * c + d * d) ltac:(nra)).
  set (u := sqrt (a * a + b * b)) in *. set (v := sqrt (c * c + d * d)) in *.
  assert (UV : 0 <= u * v) by (apply Rmult_le_pos; assumption). assert (a * c + b * d <= u * v); [|nra].
  destruct (Rle_dec (a * c + b * d) 0); [lra|]. apply Rsqr_incr_0; [|lra|lra]. unfold Rsqr.
  replace (u * v * (u * v)) with ((u * u) * (v * v)) by ring. rewrite S1, S2.
  assert (0 <= (a * d - b * c) * (a * d - b * c)) by apply Rle_0_sqr. lra.
Qed.
Lemma off_reach : forall ap off y z, ap_ok ap -> in_aperture ap off y z ->
  0 <= y * y + z * z <= (sqrt (fst off * fst off + snd off * snd off) + reach ap) * (sqrt (fst off * fst off + snd off * snd off) + reach ap).
Proof.
  intros ap off y z A I. split; [nra|].
  assert (J : in_aperture ap (0, 0) (y - fst off) (z - snd off)) by (destruct ap; simpl in *; rewrite !Rminus_0_r; exact I).
  apply aperture_reach in J; [|exact A]. pose proof (norm2_tri (fst off) (snd off) (y - fst off) (z - snd off)) as N.
  replace (fst off + (y - fst off)) with y in N by ring. replace (snd off + (z - snd off)) with z in N by ring.
  pose proof (reach_pos ap A) as P. set (L := sqrt (fst off * fst off + snd off * snd off)) in *.
  assert (B : sqrt ((y - fst off) * (y - fst off) + (z - snd off) * (z - snd off)) <= reach ap).
  { rewrite <- (sqrt_square (reach ap)) by lra. apply sqrt_le_1_alt. lra. }
  assert (L0 : 0 <= L) by apply sqrt_pos. pose proof (sqrt_pos (y * y + z * z)) as S0. assert (SS := sqrt_sqrt (y * y + z * z) ltac:(nra)). nra.
Qed.
Lemma spherical_solid : forall asort r t ap off m, argsort_ok asort -> ap_ok ap -> 0 <= t -> r <> 0 ->
  sqrt (fst off * fst off + snd off * snd off) + reach ap <= Rabs r ->
  built asort (spherical_mirror (Fin r) t ap off m) (occupies (fun x y z => in_aperture ap off y z /\
     if rltb 0 r then - t <= x < sag (Fin r) (y * y + z * z) else sag (Fin r) (y * y + z * z) < x <= t)).
Proof.
  intros asort r t ap off m AO A T N F. unfold spherical_mirror. destruct (create_aperture_ok ap 0 A) as (p0 & Ep0). rewrite Ep0. cbv zeta. clear p0 Ep0.
  rewrite max_height_reach. set (L := sqrt (fst off * fst off + snd off * snd off)) in *. pose proof (reach_pos ap A) as P.
  assert (L0 : 0 <= L) by apply sqrt_pos.
  assert (HH : 0 <= r * r - (L + reach ap) * (L + reach ap)) by (apply (room r _ (L + reach ap)); lra).
  unfold np_sqrt. replace (rleb 0 (r * r - (L + reach ap) * (L + reach ap))) with true by (symmetry; apply rleb_true; exact HH).
  set (front := Rabs r - sqrt (r * r - (L + reach ap) * (L + reach ap))).
  assert (F0 : 0 <= front).
  { pose proof (side_depth_pos r (L + reach ap) ltac:(lra) F) as X. unfold side_depth in X. rewrite abs_sq in X. exact X. }
  destruct (create_aperture_ok ap (t + front) A) as (p & Ep). rewrite Ep. destruct (Req_EM_T r 0) as [|_]; [contradiction|].
  set (zc := if rltb 0 r then (front + t) / 2 - t else t - (front + t) / 2).
  set (R0 := if rltb 0 r then r else Rabs r).
  eapply (built_turned asort _ _ _ (TNode DIFFERENCE (TLeaf p Absorber (mmul (mmove 0 0 zc) (mmul (mmove (fst off) (snd off) 0) mid)) 1)
     (TLeaf (PSphere R0) m (mmul (mmove 0 0 r) mid) (-1)))); [exact AO|cbn [track track_call]; rewrite (aperture_init _ _ _ Ep); trk|reflexivity|reflexivity| |].
  - simpl. split; [split; [eapply aperture_prim_ok; [exact A| |exact Ep]; lra|apply affine_mmul; [reflexivity|apply affine_mmul; reflexivity]]|].
    split; [|apply affine_mmul; reflexivity]. unfold R0. destruct (rltb 0 r); [exact N|apply Rabs_no_R0; exact N].
  - intros s _ _ In x y z. rewrite In. clear In.
    change (region (TNode DIFFERENCE ?a ?b) ?q) with (region a q /\ ~ region b q).
    rewrite leaf_moved2, leaf_moved, !Rplus_0_l, !Rplus_0_r, !Rminus_0_r.
    rewrite (aperture_solid ap (t + front) p off y z (x - zc) A ltac:(lra) Ep).
    assert (BB : solid (PSphere R0) (pt y z (x - r)) <-> in_ball r r x (y * y + z * z)).
    { unfold solid, in_ball, pt; cbn [vx vy vz]. replace (R0 * R0) with (r * r); [tauto|]. unfold R0. destruct (rltb 0 r); [|rewrite abs_sq]; reflexivity. }
    rewrite BB. unfold in_ball. clear BB.
    assert (Q : in_aperture ap off y z -> 0 <= y * y + z * z <= (L + reach ap) * (L + reach ap)) by (apply off_reach; exact A).
    set (q := y * y + z * z) in *. set (h := L + reach ap) in *.
    assert (K : in_aperture ap off y z -> (q + (x - r) * (x - r) <= r * r <-> - sqrt (r * r - q) <= x - r <= sqrt (r * r - q)) /\
       sqrt (r * r - h * h) <= sqrt (r * r - q)).
    { intros I. specialize (Q I). split; [apply ball_iff; pose proof (room r q h); lra|apply sqrt_mono; lra]. }
    pose proof (sqrt_pos (r * r - q)) as S0. pose proof (sqrt_pos (r * r - h * h)) as S1.
    unfold zc, sag in *. destruct (rltb 0 r) eqn:E; [apply rltb_true in E|apply rltb_false in E].
    + assert (FE : front = r - sqrt (r * r - h * h)) by (unfold front; rewrite Rabs_right by lra; reflexivity).
      split; intros [I J]; [destruct I as [I J']|]; destruct (K I) as [K1 K2]; (split; [try split; auto; try lra|]).
      * split; [lra|]. destruct (Rlt_dec x (r - sqrt (r * r - q))); [auto|]. exfalso. apply J, K1. lra.
      * rewrite K1. lra.
    + assert (FE : front = - r - sqrt (r * r - h * h)) by (unfold front; rewrite Rabs_left1 by lra; reflexivity).
      split; intros [I J]; [destruct I as [I J']|]; destruct (K I) as [K1 K2]; (split; [try split; auto; try lra|]).
      * split; [|lra]. destruct (Rlt_dec (r + sqrt (r * r - q)) x); [auto|]. exfalso. apply J, K1. lra.
      * rewrite K1. lra.
Qed.

(** ** parabolic_mirror *)
Definition far_edge (ap : aperture_arg) (off : R * R) : R :=
  match ap with
  | Pair a b => sqrt ((Rabs (fst off) + a / 2) * (Rabs (fst off) + a / 2) + (Rabs (snd off) + b / 2) * (Rabs (snd off) + b / 2))
  | Round d => sqrt (fst off * fst off + snd off * snd off) + d
  end.
Lemma far_edge_reach : forall ap off y z, ap_ok ap -> in_aperture ap off y z -> y * y + z * z <= far_edge ap off * far_edge ap off.
Proof.
  intros ap off y z A I. destruct ap as [d|a b]; simpl in A.
  - apply (off_reach (Round d)) in I; [|exact A]. simpl in I |- *. pose proof (sqrt_pos (fst off * fst off + snd off * snd off)). nra.
  - simpl in *. rewrite sqrt_sqrt by (apply Rplus_le_le_0_compat; apply Rle_0_sqr). destruct I as [Y Z].
    assert (Y1 : Rabs y <= Rabs (fst off) + a / 2) by (replace y with (fst off + (y - fst off)) by ring; eapply Rle_trans; [apply Rabs_triang|lra]).
    assert (Z1 : Rabs z <= Rabs (snd off) + b / 2) by (replace z with (snd off + (z - snd off)) by ring; eapply Rle_trans; [apply Rabs_triang|lra]).
    rewrite <- (abs_sq y), <- (abs_sq z). pose proof (Rabs_pos y). pose proof (Rabs_pos z). nra.
Qed.
Lemma far_edge_pos : forall ap off, ap_ok ap -> 0 < far_edge ap off.
Proof.
  intros [d|a b] off A; simpl in *; [pose proof (sqrt_pos (fst off * fst off + snd off * snd off)); lra|].
  apply sqrt_lt_R0. pose proof (Rabs_pos (fst off)). pose proof (Rabs_pos (snd off)). nra.
Qed.
Definition para_front (focus : R) (ap : aperture_arg) (off : R * R) : R := 1 / (4 * focus) * (far_edge ap off * far_edge ap off).
Definition para_tree (p : prim) (focus t : R) (ap : aperture_arg) (off : R * R) (m : material) : ptree :=
  mv (mmove 0 0 (- focus)) (TNode DIFFERENCE
    (TLeaf p Absorber (mmul (mmove 0 0 ((t + para_front focus ap off) / 2 - t)) (mmul (mmove (fst off) (snd off) 0) mid)) 1)
    (TLeaf (PParaboloid focus (15 / 10 * para_front focus ap off)) m mid (-1))).
Lemma para_front_pos : forall f ap off, ap_ok ap -> 0 < f -> 0 < para_front f ap off.
Proof.
  intros f ap off A F. unfold para_front. pose proof (far_edge_pos ap off A). apply Rmult_lt_0_compat; [|nra].
  apply Rdiv_lt_0_compat; lra.
Qed.
Lemma parabolic_tree : forall asort f t ap off m (P : shape -> Prop), argsort_ok asort -> ap_ok ap -> 0 <= t -> 0 < f ->
  (forall s p, create_aperture ap (t + para_front f ap off) = Some p -> erase s = mv rx90 (mv ry90 (para_tree p f t ap off m)) -> boxes_current s ->
     (forall x y z, inside s (pt x y z) <-> in_aperture ap off y z /\ - (f + t) <= x < (y * y + z * z) / (4 * f) - f) -> P s) ->
  built asort (parabolic_mirror f t ap off m) P.
Proof.
  intros asort f t ap off m P AO A T F K. unfold parabolic_mirror. cbv zeta.
  change (match ap with Round d => sqrt (fst off * fst off + snd off * snd off) + d
    | Pair a b => sqrt ((Rabs (fst off) + a / 2) * (Rabs (fst off) + a / 2) + (Rabs (snd off) + b / 2) * (Rabs (snd off) + b / 2)) end) with (far_edge ap off).
  destruct (Req_EM_T f 0) as [E|_]; [lra|]. change (1 / (4 * f) * (far_edge ap off * far_edge ap off)) with (para_front f ap off).
  pose proof (para_front_pos f ap off A F) as FP.
  destruct (create_aperture_ok ap (t + para_front f ap off) A) as (p & Ep). rewrite Ep.
  assert (TR : track [CSurface p Absorber; CMotion 0 (Move (fst off) (snd off) 0); CMotion 0 (op_move_z ((t + para_front f ap off) / 2 - t));
      CSurface (PParaboloid f (15 / 10 * para_front f ap off)) m; CCsg DIFFERENCE 0 1; CMotion 2 (op_move_z (- f))] [] = Some [None; None; Some (para_tree p f t ap off m)]).
  { cbn [track track_call]. rewrite (aperture_init _ _ _ Ep). cbn [nth_error motion_matrix set_nth op_move_z app]. unfold prim_init.
    replace (rleb f 0) with false by (symmetry; apply rleb_false; lra).
    replace (rleb (15 / 10 * para_front f ap off) 0) with false by (symmetry; apply rleb_false; lra). cbn [orb]. unfold para_tree. trk. }
  eapply (built_turned asort _ _ _ (para_tree p f t ap off m)); [exact AO|exact TR|reflexivity|reflexivity| |].
  - unfold para_tree. apply prims_ok_mv; [reflexivity|]. simpl. split.
    + split; [eapply aperture_prim_ok; [exact A| |exact Ep]; lra|apply affine_mmul; [reflexivity|apply affine_mmul; reflexivity]].
    + split; [|reflexivity]. lra.
  - intros s Er BC In. apply (K s p Ep Er BC). intros x y z. rewrite In. clear In Er BC s.
    unfold para_tree. rewrite (region_mv (mmove 0 0 (- f)) (mmove 0 0 f)).
    2:{ split; rewrite mmove_mmove; unfold mmove, mid; f_equal; f_equal; lra. }
    2:{ reflexivity. }
    replace (mapply (mmove 0 0 f) (pt y z x)) with (pt y z (x + f)) by (unfold mmove, pt, mapply, vdot; cbn [vx vy vz vw row0 row1 row2 row3]; f_equal; ring).
    change (region (TNode DIFFERENCE ?a ?b) ?q) with (region a q /\ ~ region b q).
    rewrite leaf_moved2, leaf_mid, !Rplus_0_l, !Rplus_0_r.
    rewrite (aperture_solid ap (t + para_front f ap off) p off y z _ A ltac:(lra) Ep).
    unfold solid, pt; cbn [vx vy vz].
    assert (Q : in_aperture ap off y z -> (y * y + z * z) / (4 * f) <= para_front f ap off).
    { intros I. pose proof (far_edge_reach ap off y z A I). unfold para_front. unfold Rdiv. rewrite Rmult_1_l, (Rmult_comm (/ (4 * f))).
      apply Rmult_le_compat_r; [left; apply Rinv_0_lt_compat; lra|exact H]. }
    assert (D : forall u, y * y + z * z <= 4 * f * u <-> (y * y + z * z) / (4 * f) <= u).
    { intros u. assert (E4 : y * y + z * z = (y * y + z * z) / (4 * f) * (4 * f)) by (field; lra). split; intro H.
      - apply (Rmult_le_reg_r (4 * f)); [lra|]. rewrite <- E4. lra.
      - rewrite E4. rewrite (Rmult_comm (4 * f)). apply Rmult_le_compat_r; lra. }
    rewrite D. assert (q0 : 0 <= (y * y + z * z) / (4 * f)) by (apply Rmult_le_pos; [nra|left; apply Rinv_0_lt_compat; lra]).
    set (w := (y * y + z * z) / (4 * f)) in *. set (g := para_front f ap off) in *. split.
    + intros [[I B] J]. specialize (Q I). split; [exact I|]. split; [lra|].
      destruct (Rlt_dec x (w - f)); [auto|]. exfalso. apply J. lra.
    + intros [I B]. specialize (Q I). split; [split; [exact I|lra]|]. intros [J1 J2]. lra.
Qed.
Lemma parabolic_solid : forall asort f t ap off m, argsort_ok asort -> ap_ok ap -> 0 <= t -> 0 < f ->
  built asort (parabolic_mirror f t ap off m) (occupies (fun x y z => in_aperture ap off y z /\
    - (f + t) <= x < (y * y + z * z) / (4 * f) - f)).
Proof. intros. apply parabolic_tree; auto. Qed.
