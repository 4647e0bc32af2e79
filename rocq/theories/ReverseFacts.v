(** * ReverseFacts: the legs and the turns of a ray that is sent back *)
From Coq Require Import Reals List Bool ZArith Lra Lia Psatz Classical_Prop.
Import ListNotations.
From Verif Require Import XR XRFacts Lin LinFacts Prim Csg Surf CsgProps SpecGeom SpecTree SpecNormal SpecOptics OpsFacts TreeFacts SurfFacts World SpecWorld Tracer SpecTrace TraceFacts5 TraceFacts7 TraceProps SpecCrossing Crossing CrossingProps PrismFacts SpecMedium NormalSides MediumFacts MediumProps SpecReverse.
Open Scope R_scope.

(** ** Rays *)
Lemma back_at : forall x d L t, vw d = 0 -> ray_at (Ray (ray_at (Ray x d) L) (vopp d)) t = ray_at (Ray x d) (L - t).
Proof. intros [a b c e] [a' b' c' e'] L t D. unfold ray_at, vopp, vscale. cbn in *. subst. f_equal; ring. Qed.
Lemma back_past : forall x d t, ray_at (Ray x d) (- t) = ray_at (Ray x (vopp d)) t.
Proof. intros [a b c e] [a' b' c' e'] t. unfold ray_at, vopp, vscale. cbn. f_equal; ring. Qed.
Lemma world_unit : forall p d, vw p = 1 -> unit d -> vw d = 0 -> world_ray (Ray p d).
Proof.
  intros p d W U D. split; [exact W|]. split; [exact D|]. intros (X & Y & Z). cbn in X, Y, Z. unfold unit, vdot in U. rewrite X, Y, Z, D in U. lra.
Qed.

(** ** Crossings *)
Lemma crosses_like : forall (P Q : R -> Prop) q e same, 0 < e -> (forall t, Rabs (t - q) < e -> (Q t -> if same : bool then P t else ~ P t) /\ (~ Q t -> if same then ~ P t else P t)) ->
  crosses Q q -> crosses P q.
Proof.
  intros P Q q e same E H C.
  assert (NEAR : forall d t, t <> q -> q - Rmin d e < t < q + Rmin d e -> Rabs (t - q) < e).
  { intros d t N T. pose proof (Rmin_r d e). unfold Rabs. destruct (Rcase_abs (t - q)); lra. }
  destruct C as [(d & D & A & B)|(d & D & A & B)]; assert (M : 0 < Rmin d e) by (apply Rmin_glb_lt; auto); pose proof (Rmin_l d e) as ML; destruct same;
    [left|right|right|left]; exists (Rmin d e); (split; [exact M|split]); intros t T;
    (apply (H t); [apply (NEAR d); lra|]); first [apply A; lra|apply B; lra].
Qed.
Lemma sided_crosses : forall P x n d L, vw d = 0 -> vdot n d <> 0 -> sided P x n ->
  crosses (fun t => P (ray_at (Ray (ray_at (Ray x d) L) (vopp d)) t)) L.
Proof.
  intros P x n d L D N S.
  assert (D' : vw (vopp d) = 0) by (unfold vopp, vscale; cbn; rewrite D; ring).
  destruct (S d D) as (S1 & S2). destruct (S (vopp d) D') as (S3 & S4). rewrite vdot_opp_r in S3, S4.
  assert (BEF : forall t, ray_at (Ray (ray_at (Ray x d) L) (vopp d)) t = ray_at (Ray x d) (L - t)) by (intro; apply back_at; auto).
  assert (AFT : forall t, ray_at (Ray (ray_at (Ray x d) L) (vopp d)) t = ray_at (Ray x (vopp d)) (t - L)).
  { intro t. rewrite BEF, <- back_past. f_equal. ring. }
  destruct (Rlt_dec (vdot n d) 0) as [X|X].
  - destruct (S1 X) as (e1 & E1 & H1). destruct (S4 ltac:(lra)) as (e2 & E2 & H2). left. pose proof (Rmin_l e1 e2). pose proof (Rmin_r e1 e2).
    exists (Rmin e1 e2). split; [apply Rmin_glb_lt; auto|]. split; intros t T; [rewrite BEF; apply H1; lra|rewrite AFT; apply H2; lra].
  - destruct (S2 ltac:(lra)) as (e1 & E1 & H1). destruct (S3 ltac:(lra)) as (e2 & E2 & H2). right. pose proof (Rmin_l e1 e2). pose proof (Rmin_r e1 e2).
    exists (Rmin e1 e2). split; [apply Rmin_glb_lt; auto|]. split; intros t T; [rewrite BEF; apply H1; lra|rewrite AFT; apply H2; lra].
Qed.
(** A solid surface is hit where the ray goes through it *)
Lemma crossing_hit : forall f r q, surf_ok f -> world_ray r -> good_local (s_prim f) (ray_map (s_obj f) r) ->
  crosses (fun t => placed f (ray_at r t)) q -> In (Fin q) (surf_hits f r).
Proof.
  intros f r q OK W G C. destruct (surf_chord f r OK W G) as [(t0 & t1 & -> & L & S)|(_ & S)].
  - assert (q = t0 \/ q = t1); [|destruct H as [-> | ->]; simpl; auto].
    destruct (Req_dec q t0); auto. destruct (Req_dec q t1); auto. exfalso.
    destruct (gap [t0; t1] q) as (g & GP & K). assert (K0 := K t0 ltac:(simpl; auto) ltac:(auto)). assert (K1 := K t1 ltac:(simpl; auto) ltac:(auto)).
    assert (Z : exists u v, q - g < u < q /\ q < v < q + g /\ ~ (placed f (ray_at r u) <-> placed f (ray_at r v))).
    { destruct C as [(e & E & A & B)|(e & E & A & B)]; pose proof (Rmin_l e g); pose proof (Rmin_r e g); (assert (0 < Rmin e g) by (apply Rmin_glb_lt; auto));
        exists (q - Rmin e g / 2), (q + Rmin e g / 2); (split; [lra|split; [lra|]]); specialize (A (q - Rmin e g / 2) ltac:(lra)); specialize (B (q + Rmin e g / 2) ltac:(lra)); tauto. }
    destruct Z as (u & v & U & V & Z). apply Z. rewrite (S u), (S v). unfold Rabs in K0, K1. destruct (Rcase_abs (t0 - q)), (Rcase_abs (t1 - q)); split; lra.
  - exfalso. assert (Z : exists u v, u <> v /\ placed f (ray_at r u) /\ placed f (ray_at r v)).
    { destruct C as [(e & E & A & B)|(e & E & A & B)]; [exists (q - e / 2), (q - e / 3)|exists (q + e / 2), (q + e / 3)]; (split; [lra|]); split; first [apply A; lra|apply B; lra]. }
    destruct Z as (u & v & N & P & Q). apply N. apply S; auto.
Qed.

(** ** Turns *)
Lemma bounce_tilted : forall surfaces w w' s n, NoDup (map s_id surfaces) -> bounce surfaces w w' -> In s surfaces -> s_id s = row_surf w ->
  world_normal s (here (row_end w)) = Some n -> vdot (row_tilt w) n <> 0 -> unit n /\ vdot (row_tilt w') n <> 0.
Proof.
  intros surfaces w w' s n ND (s0 & n0 & I0 & E0 & N0 & U0 & B) I E N T. assert (s0 = s) by (apply (same_surface surfaces); auto; congruence). subst s0.
  assert (n0 = n) by congruence. subst n0. split; auto. destruct (s_mat s) as [| |g|]; try contradiction.
  - destruct B as (_ & M & _). lra.
  - destruct B as (n2 & _ & B1 & B2). set (m := next_index (row_tilt w) n n2 world_index) in *.
    destruct (Rlt_dec (row_idx w * vnorm (tangential (row_tilt w) n)) m) as [X|X].
    + destruct (B1 X) as (_ & _ & Z). destruct (Rlt_dec 0 (vdot (row_tilt w) n)); lra.
    + destruct (B2 ltac:(lra)) as (_ & M & _). lra.
Qed.
Lemma scale_inj : forall k a b, k <> 0 -> vscale k a = vscale k b -> a = b.
Proof.
  intros k [a b c d] [a' b' c' d'] K E. unfold vscale in E. cbn in E. injection E as E1 E2 E3 E4.
  f_equal; apply (Rmult_eq_reg_l k); auto.
Qed.
(** A unit vector is known from its part along the surface and its side *)
Lemma same_side : forall a b n, unit a -> unit b -> unit n -> tangential a n = tangential b n -> 0 < vdot a n * vdot b n -> a = b.
Proof.
  intros a b n A B N T S. apply (recompose a b n N T).
  pose proof (dot_split a n N) as X. pose proof (dot_split b n N) as Y. rewrite A in X. rewrite B, <- T in Y.
  assert (Z : (vdot a n - vdot b n) * (vdot a n + vdot b n) = 0) by lra. apply Rmult_integral in Z. destruct Z as [Z|Z]; [lra|].
  exfalso. assert (vdot b n = - vdot a n) by lra. rewrite H in S. nra.
Qed.
Lemma sine_below : forall d n, unit d -> unit n -> vdot d n <> 0 -> 0 <= vnorm (tangential d n) < 1.
Proof.
  intros d n U N X. pose proof (sine_sq d n U N) as S. assert (P : 0 <= vnorm (tangential d n)) by (unfold vnorm; apply sqrt_pos).
  split; auto. assert (0 < vdot d n * vdot d n) by (destruct (Rtotal_order (vdot d n) 0) as [|[|]]; [nra|contradiction|nra]). nra.
Qed.
Lemma turned_back : forall comps w w' v u, bench comps -> NoDup (map s_id (flat_map surface_ids comps)) ->
  unit (row_tilt w) -> vw (row_tilt w) = 0 -> unit (row_tilt w') -> unit (row_tilt u) ->
  junction comps w w' -> index_true comps w -> 0 < row_idx w ->
  against w' v -> ends_like w v -> row_wl v = row_wl w -> bounce (flat_map surface_ids comps) v u -> against w u.
Proof.
  intros comps w w' v u BN ND U WD U' UU J IT POS (TV & IV) (EV & SV) WV BO. pose proof (index_back comps w w' U WD J IT) as ST.
  destruct J as (f & n & F & EF & NO & UN & TN & J). destruct BO as (f0 & n0 & F0 & E0 & NO0 & _ & BO).
  assert (f0 = f) by (apply (same_surface (flat_map surface_ids comps)); auto; congruence). subst f0. rewrite EV in NO0. assert (n0 = n) by congruence. subst n0.
  assert (FLIP : forall k, mirrored (row_tilt w) (row_tilt w') n -> mirrored (vopp (row_tilt w')) (row_tilt u) n -> k = row_idx w -> row_tilt u = vopp (row_tilt w) /\ k = row_idx w).
  { intros k (M1 & M2) (M3 & M4) K. split; auto. apply (recompose _ _ n UN).
    - rewrite M4, !tangential_opp, M2. reflexivity.
    - rewrite M3, !vdot_opp_l, M1. ring. }
  destruct J as [(MF & EI & M & _)|(s & g & n2 & I & FS & G & MF & G2 & WN & SI & _ & PA & RF & RT)]; rewrite MF in BO.
  - destruct BO as (BI & BM). rewrite TV in BM. unfold against. apply FLIP; auto; congruence.
  - destruct BO as (n2' & G2' & BO1 & BO2). rewrite WV, G2 in G2'. injection G2' as <-. rewrite TV, IV in BO1, BO2.
    assert (UB := unit_neg _ U). assert (WB : vw (vscale (-1) (row_tilt w)) = 0) by (unfold vscale; cbn; rewrite WD; ring).
    destruct (PA _ UB WB) as (P1 & P2). rewrite vdot_neg, (vdot_comm n) in P1, P2.
    assert (EI : row_idx w = if Rlt_dec 0 (vdot (row_tilt w) n) then n2 else world_index).
    { destruct (Rlt_dec 0 (vdot (row_tilt w) n)); apply (starts_unique comps (row_wl w) (Ray (here (row_end w)) (vscale (-1) (row_tilt w)))); auto; [apply P1|apply P2]; lra. }
    rewrite tangential_opp, vnorm_opp in BO1, BO2. unfold next_index in *. rewrite vdot_opp_l in BO1, BO2. cbv zeta in *.
    pose proof (sine_below _ n U UN TN) as (SP & SB).
    set (m := if Rlt_dec 0 (vdot (row_tilt w) n) then world_index else n2) in *.
    set (m' := if Rlt_dec 0 (- vdot (row_tilt w') n) then world_index else n2) in *.
    destruct (Rlt_dec (row_idx w * vnorm (tangential (row_tilt w) n)) m) as [Y|Y].
    + destruct (RF Y) as (IW & SN & SD). assert (EM : m' = row_idx w).
      { rewrite EI. unfold m'. destruct (Rlt_dec 0 (vdot (row_tilt w) n)); destruct (Rlt_dec 0 (- vdot (row_tilt w') n)); auto; lra. }
      assert (MP : 0 < m) by nra.
      assert (NE : m * vnorm (tangential (row_tilt w') n) = row_idx w * vnorm (tangential (row_tilt w) n)).
      { rewrite <- !vnorm_scale by lra. rewrite SN. reflexivity. }
      destruct BO1 as (IU & SN' & SD'). { rewrite IW, NE, EM. nra. }
      rewrite EM in *. split; [|exact IU]. rewrite IW in SN'.
      apply (same_side _ _ n UU (unit_opp _ U) UN).
      * apply (scale_inj (row_idx w)); [lra|]. rewrite <- SN', tangential_opp.
        transitivity (vopp (vscale m (tangential (row_tilt w') n))); [unfold vopp, vscale; cbn; f_equal; ring|]. rewrite <- SN. unfold vopp, vscale; cbn; f_equal; ring.
      * rewrite vdot_opp_l. destruct (Rlt_dec 0 (vdot (row_tilt w) n)); destruct (Rlt_dec 0 (- vdot (row_tilt w') n)); nra.
    + destruct (RT ltac:(lra)) as (IW & M). pose proof M as (M1 & M2).
      assert (EM : m' = m).
      { unfold m', m. rewrite M1. destruct (Rlt_dec 0 (vdot (row_tilt w) n)); destruct (Rlt_dec 0 (- - vdot (row_tilt w) n)); auto; lra. }
      destruct BO2 as (IU & MU). { rewrite EM, IW, M2. lra. } unfold against. apply FLIP; auto. congruence.
Qed.
