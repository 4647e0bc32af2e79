(** * MediumProps: the recorded index is that of the medium the row runs in *)
From Coq Require Import Reals List Bool ZArith Lra Lia Psatz Classical_Prop.
Import ListNotations.
From Verif Require Import XR XRFacts Lin LinFacts Prim Csg Surf CsgProps SpecGeom SpecTree SpecNormal SpecOptics TreeFacts SurfFacts World SpecWorld Tracer SpecTrace TraceFacts5 TraceFacts7 TraceProps SpecCrossing Crossing CrossingProps SpecMedium NormalSides MediumFacts.
Open Scope R_scope.

Definition ball (x : v4) (eps : R) (y : v4) : Prop := vw y = 1 /\ vnorm (vsub y x) < eps.
Lemma ball_smaller : forall P x e e', e' <= e -> fixed P (ball x e) -> fixed P (ball x e').
Proof. intros P x e e' E [H|H]; [left|right]; intros y (W & N); apply H; split; auto; lra. Qed.
Lemma on_way : forall x d e t, vw x = 1 -> unit d -> vw d = 0 -> Rabs t < e -> ball x e (ray_at (Ray x d) t).
Proof. intros. apply soon_ball; auto. Qed.

Lemma ids_part : forall comps s, In s comps -> NoDup (map s_id (flat_map surface_ids comps)) -> NoDup (map s_id (surface_ids s)).
Proof.
  induction comps as [|a comps IH]; intros s I N; [destruct I|]. cbn [flat_map] in N. rewrite map_app in N.
  destruct I as [-> | I]; [exact (nodup_left _ _ _ N)|]. apply IH; auto. exact (nodup_rest _ _ _ N).
Qed.
(** Around a point of the surface [f] alone, a piece of glass is everywhere or nowhere, or it ends at [f] *)
Lemma glass_near : forall comps f x eps n, bench comps -> NoDup (map s_id (flat_map surface_ids comps)) ->
  In f (flat_map surface_ids comps) -> 0 < eps -> vw x = 1 ->
  (forall g, In g (flat_map surface_ids comps) -> s_id g <> s_id f -> fixed (placed g) (ball x eps)) ->
  s_nscale f = 1 \/ s_nscale f = -1 ->
  ((exists idx, s_mat f = Refractor idx) -> sided (placed f) x (vscale (s_nscale f) n)) ->
  forall s g, In s comps -> of_glass s g -> fixed (inside s) (ball x eps) \/ (In f (surface_ids s) /\ sided (inside s) x n).
Proof.
  intros comps f x eps n (B & _) ND F EP WX AL KS SD s g I (SH & M).
  destruct (in_dec Z.eq_dec (s_id f) (map s_id (surface_ids s))) as [J|J].
  2: { left. apply tree_fixed. intros h H. apply AL; [apply in_flat_map; eauto|]. intro E. apply J. rewrite <- E. apply in_map. exact H. }
  apply in_map_iff in J. destruct J as (f' & E & F').
  assert (f' = f) by (apply (same_surface (flat_map surface_ids comps)); auto; apply in_flat_map; eauto). subst f'.
  assert (MF : s_mat f = Refractor g) by (apply M; auto).
  assert (SR : signs_right s).
  { destruct (B s I) as (m & MM & H). assert (m = Refractor g) by (rewrite <- (MM f F'); auto). apply (H g); auto. }
  assert (SE : exists e, In (f, e) (signed s true)).
  { rewrite <- (signed_surfaces s true) in F'. apply in_map_iff in F'. destruct F' as ((f0 & e) & E0 & I0). cbn in E0. subst f0. eauto. }
  destruct SE as (e & SE). pose proof (SR _ _ SE) as KE.
  destruct (tree_like (ball x eps) f s true e SE) as [H|H].
  - apply (ids_part comps); auto.
  - intros h H N. apply AL; auto. apply in_flat_map. eauto.
  - left. exact H.
  - right. split; auto. specialize (SD (ex_intro _ g MF)). intros d D. destruct (SD d D) as (S1 & S2). rewrite KE in S1, S2.
    assert (SUB : forall c, vdot (vscale c n) d = c * vdot n d) by (intro c; unfold vdot, vscale; cbn; ring). rewrite !SUB in *.
    assert (LOC : exists k, 0 < k /\ forall t, 0 < t < k -> ball x eps (ray_at (Ray x d) t)).
    { exists (eps / (1 + vnorm d)). assert (ND0 : 0 <= vnorm d) by (unfold vnorm; apply sqrt_pos). split; [apply Rdiv_lt_0_compat; lra|]. intros t T. split.
      - unfold ray_at. cbn [origin direction vw]. rewrite WX, D. ring.
      - assert (EQ : vsub (ray_at (Ray x d) t) x = vscale t d).
        { unfold vsub, vadd, vopp, vscale, ray_at. destruct x, d; cbn. f_equal; ring. }
        rewrite EQ. assert (NE : vnorm (vscale t d) = t * vnorm d).
        { unfold vnorm. replace (vdot (vscale t d) (vscale t d)) with (t * t * vdot d d) by (unfold vdot, vscale; cbn; ring).
          rewrite sqrt_mult_alt by nra. rewrite sqrt_square by lra. reflexivity. }
        rewrite NE. destruct T as (T0 & T1). apply (Rmult_lt_compat_r (1 + vnorm d)) in T1; [|lra]. unfold Rdiv in T1. rewrite Rmult_assoc, Rinv_l in T1 by lra. nra. }
    destruct LOC as (k & K & LOC).
    assert (BOTH : forall Q Q' : v4 -> Prop, (exists e0, 0 < e0 /\ forall t, 0 < t < e0 -> Q (ray_at (Ray x d) t)) ->
        (forall y, ball x eps y -> Q y -> Q' y) -> exists e0, 0 < e0 /\ forall t, 0 < t < e0 -> Q' (ray_at (Ray x d) t)).
    { intros Q Q' (e0 & E0 & HQ) IMP. exists (Rmin e0 k). pose proof (Rmin_l e0 k). pose proof (Rmin_r e0 k). split; [apply Rmin_glb_lt; auto|].
      intros t T. apply IMP; [apply LOC; lra|apply HQ; lra]. }
    destruct e; cbn [Bool.eqb] in H.
    + split; intro X.
      * apply (BOTH (placed f) (inside s)); [apply S1; lra|]. intros y Y. apply (H y Y).
      * apply (BOTH (fun y => ~ placed f y) (fun y => ~ inside s y)); [apply S2; lra|]. intros y Y. apply (H y Y).
    + split; intro X.
      * apply (BOTH (fun y => ~ placed f y) (inside s)); [apply S2; lra|]. intros y Y. apply (H y Y).
      * apply (BOTH (placed f) (fun y => ~ inside s y)); [apply S1; lra|]. intros y Y. apply (H y Y).
Qed.

Lemma vdot_neg : forall n d, vdot n (vscale (-1) d) = - vdot n d.
Proof. intros. unfold vdot, vscale; cbn. ring. Qed.
Lemma unit_neg : forall d, unit d -> unit (vscale (-1) d).
Proof. intros d U. unfold unit in *. rewrite <- U. unfold vdot, vscale; cbn. ring. Qed.
Lemma starts_unique : forall comps wl r n n', bench comps -> starts_in comps wl r n -> starts_in comps wl r n' -> n = n'.
Proof.
  intros comps wl r n n' B (e & E & H) (e' & E' & H'). set (t := Rmin e e' / 2). pose proof (Rmin_l e e'). pose proof (Rmin_r e e').
  assert (0 < Rmin e e') by (apply Rmin_glb_lt; auto). apply (medium_unique comps wl (ray_at r t)); auto; [apply H|apply H']; unfold t; lra.
Qed.
(** Glass that the ray enters or leaves at [f]: its index behind the surface, the world's before it *)
Lemma parted : forall comps wl f s g x eps n n2, bench comps -> 0 < eps -> vw x = 1 -> vw n = 0 -> vdot n n = 1 ->
  (forall s g, In s comps -> of_glass s g -> fixed (inside s) (ball x eps) \/ (In f (surface_ids s) /\ sided (inside s) x n)) ->
  In s comps -> of_glass s g -> sided (inside s) x n -> g wl = Fin n2 ->
  forall u, unit u -> vw u = 0 ->
  (vdot n u < 0 -> starts_in comps wl (Ray x u) n2) /\ (0 < vdot n u -> starts_in comps wl (Ray x u) world_index).
Proof.
  intros comps wl f s g x eps n n2 B EP WX WN UN LOC I G SD G2 u U WU. pose proof B as (_ & DIS).
  assert (OUT : forall s' g', In s' comps -> of_glass s' g' -> s' = s \/ forall y, ball x eps y -> ~ inside s' y).
  { intros s' g' I' G'. assert (UB : unit (vscale (-1) n)) by (apply unit_neg; exact UN). assert (WB : vw (vscale (-1) n) = 0) by (unfold vscale; cbn; rewrite WN; ring).
    destruct (SD (vscale (-1) n) WB) as (S1 & _). rewrite vdot_neg, UN in S1. destruct (S1 ltac:(lra)) as (e1 & E1 & H1).
    destruct (LOC s' g' I' G') as [[H|H]|(_ & SD')].
    - left. set (t := Rmin e1 eps / 2). pose proof (Rmin_l e1 eps). pose proof (Rmin_r e1 eps). assert (0 < Rmin e1 eps) by (apply Rmin_glb_lt; auto).
      apply (DIS s' s g' g (ray_at (Ray x (vscale (-1) n)) t)); auto; [apply H; apply on_way; auto; rewrite Rabs_right; unfold t; lra|apply H1; unfold t; lra].
    - right. exact H.
    - left. destruct (SD' (vscale (-1) n) WB) as (S1' & _). rewrite vdot_neg, UN in S1'. destruct (S1' ltac:(lra)) as (e2 & E2 & H2).
      set (t := Rmin e1 e2 / 2). pose proof (Rmin_l e1 e2). pose proof (Rmin_r e1 e2). assert (0 < Rmin e1 e2) by (apply Rmin_glb_lt; auto).
      apply (DIS s' s g' g (ray_at (Ray x (vscale (-1) n)) t)); auto; [apply H2|apply H1]; unfold t; lra. }
  destruct (SD u WU) as (S1 & S2). split; intro X.
  - destruct (S1 X) as (e & E & H). exists e. split; auto. intros t T. left. exists s, g. repeat (split; auto); apply G.
  - destruct (S2 X) as (e & E & H). exists (Rmin e eps). pose proof (Rmin_l e eps). pose proof (Rmin_r e eps). split; [apply Rmin_glb_lt; auto|].
    intros t T. right. split; auto. intros s' g' I' G'. destruct (OUT s' g' I' G') as [-> | O]; [apply H; lra|].
    apply O. apply on_way; auto. rewrite Rabs_right; lra.
Qed.
(** Where no glass ends, the medium is the same all around *)
Lemma unparted : forall comps wl x eps n, 0 < eps -> vw x = 1 ->
  (forall s g, In s comps -> of_glass s g -> fixed (inside s) (ball x eps)) ->
  forall u v, unit u -> vw u = 0 -> unit v -> vw v = 0 -> starts_in comps wl (Ray x u) n -> starts_in comps wl (Ray x v) n.
Proof.
  intros comps wl x eps n EP WX LOC u v U WU V WV (e & E & H). pose proof (Rmin_l e eps). pose proof (Rmin_r e eps). assert (0 < Rmin e eps) by (apply Rmin_glb_lt; auto).
  exists eps. split; auto. intros t T. apply (medium_same comps wl (ray_at (Ray x u) (Rmin e eps / 2))); [|apply H; lra].
  intros s g I G. assert (B1 : ball x eps (ray_at (Ray x u) (Rmin e eps / 2))) by (apply on_way; auto; rewrite Rabs_right; lra).
  assert (B2 : ball x eps (ray_at (Ray x v) t)) by (apply on_way; auto; rewrite Rabs_right; lra).
  destruct (LOC s g I G) as [L|L]; split; intro J; auto; exfalso; [apply (L _ B1 J)|apply (L _ B2 J)].
Qed.
(** Which glass is where just before the end of a row, as seen back from there *)
Lemma seen_back : forall comps wl x d len n f, 0 < len -> vw x = 1 -> unit d -> vw d = 0 -> forall eps m, 0 < eps ->
  (forall s g, In s comps -> of_glass s g -> fixed (inside s) (ball x eps) \/ (In f (surface_ids s) /\ sided (inside s) x m)) ->
  vdot d m <> 0 -> mostly (fun t => medium comps wl (ray_at (Ray x (vscale (-1) d)) (len - t)) n) 0 len ->
  starts_in comps wl (Ray x (vscale (-1) d)) n.
Proof.
  intros comps wl x d len n f LEN WX U WD eps m EP LOC NZ (L & H).
  set (u := vscale (-1) d) in *. assert (UU : unit u) by (apply unit_neg; auto). assert (WU : vw u = 0) by (unfold u, vscale; cbn; rewrite WD; ring).
  assert (NZ' : vdot m u <> 0) by (unfold u; rewrite vdot_neg; rewrite vdot_comm in NZ; lra).
  assert (ST : forall l, (forall s, In s l -> In s comps) -> exists e, 0 < e /\ forall s g, In s l -> of_glass s g ->
            (forall t, 0 < t < e -> inside s (ray_at (Ray x u) t)) \/ (forall t, 0 < t < e -> ~ inside s (ray_at (Ray x u) t))).
  { induction l as [|s l IH]; intro SUB; [exists 1; split; [lra|intros s g []]|]. destruct IH as (e & E & K); [intros s' I'; apply SUB; right; exact I'|].
    destruct (sheet s) eqn:SH.
    { exists e. split; auto. intros s' g' [<- | I'] G'; [destruct G' as (G' & _); congruence|apply (K s' g'); auto]. }
    destruct (surface_ids s) as [|f0 fs] eqn:FS; [destruct (has_surface s FS)|].
    assert (DEC : (exists g, of_glass s g) -> exists e', 0 < e' /\ ((forall t, 0 < t < e' -> inside s (ray_at (Ray x u) t)) \/ (forall t, 0 < t < e' -> ~ inside s (ray_at (Ray x u) t)))).
    { intros (g & G). destruct (LOC s g (SUB s (or_introl eq_refl)) G) as [[F|F]|(_ & SD)].
      - exists eps. split; auto. left. intros t T. apply F. apply on_way; auto. rewrite Rabs_right; lra.
      - exists eps. split; auto. right. intros t T. apply F. apply on_way; auto. rewrite Rabs_right; lra.
      - destruct (SD u WU) as (S1 & S2). destruct (Rtotal_order (vdot m u) 0) as [X|[X|X]]; [|lra|].
        + destruct (S1 X) as (e' & E' & Y). exists e'. auto.
        + destruct (S2 X) as (e' & E' & Y). exists e'. auto. }
    destruct (classic (exists g, of_glass s g)) as [G|G].
    - destruct (DEC G) as (e' & E' & Y). exists (Rmin e e'). pose proof (Rmin_l e e'). pose proof (Rmin_r e e'). split; [apply Rmin_glb_lt; auto|].
      intros s' g' [<- | I'] G'.
      + destruct Y as [Y|Y]; [left|right]; intros t T; apply Y; lra.
      + destruct (K s' g' I' G') as [Z|Z]; [left|right]; intros t T; apply Z; lra.
    - exists e. split; auto. intros s' g' [<- | I'] G'; [elim G; eauto|apply (K s' g'); auto]. }
  destruct (ST comps (fun s I => I)) as (e & E & K). exists e. split; auto. intros t T.
  assert (M : 0 < Rmin e len) by (apply Rmin_glb_lt; auto). pose proof (Rmin_l e len). pose proof (Rmin_r e len).
  destruct (avoid (map (fun q => len - q) L) 0 (Rmin e len) M) as (q & Q & N).
  apply (medium_same comps wl (ray_at (Ray x u) q)).
  - intros s g I G. destruct (K s g I G) as [Z|Z]; split; intro J; try (apply Z; lra); exfalso; [apply (Z q); auto; lra|apply (Z t); auto].
  - replace q with (len - (len - q)) by ring. apply H; [lra|]. intro J. apply N. apply in_map_iff. exists (len - q). split; auto. ring.
Qed.
Lemma end_at : forall w len, vw (row_tilt w) = 0 -> row_end w = vadd (row_start w) (vscale len (row_tilt w)) -> here (row_end w) = ray_at (way w) len.
Proof.
  intros w len D E. rewrite E. unfold here, way, ray_at, vadd, vscale, vset_w. destruct (row_start w) as [a b c e], (row_tilt w) as [a' b' c' e']. cbn in *. subst. f_equal; ring.
Qed.
Lemma way_back : forall w len t, vw (row_tilt w) = 0 -> row_end w = vadd (row_start w) (vscale len (row_tilt w)) ->
  ray_at (way w) t = ray_at (Ray (here (row_end w)) (vscale (-1) (row_tilt w))) (len - t).
Proof.
  intros w len t D E. rewrite E. unfold here, way, ray_at, vadd, vscale, vset_w. destruct (row_start w) as [a b c e], (row_tilt w) as [a' b' c' e']. cbn in *. subst. f_equal; ring.
Qed.
Lemma way_on : forall w w' t, vw (row_tilt w') = 0 -> follows w w' -> ray_at (way w') t = ray_at (Ray (here (row_end w)) (row_tilt w')) (ray_offset_value + t).
Proof.
  intros w w' t D (E & _). unfold way. rewrite E. unfold here, ray_at, vadd, vscale, vset_w. destruct (row_end w) as [a b c e], (row_tilt w') as [a' b' c' e']. cbn in *. subst. f_equal; ring.
Qed.
Lemma same_length : forall w a b, unit (row_tilt w) -> row_end w = vadd (row_start w) (vscale a (row_tilt w)) -> row_end w = vadd (row_start w) (vscale b (row_tilt w)) -> a = b.
Proof.
  intros w a b U EA EB. rewrite EA in EB. destruct (row_start w) as [p q r s], (row_tilt w) as [x y z v]. unfold vadd, vscale in EB. cbn in EB. injection EB as E1 E2 E3 E4.
  unfold unit, vdot in U. cbn in U. assert ((a - b) * (x * x + y * y + z * z + v * v) = 0).
  { replace ((a - b) * (x * x + y * y + z * z + v * v)) with ((a * x - b * x) * x + (a * y - b * y) * y + (a * z - b * z) * z + (a * v - b * v) * v) by ring.
    replace (a * x - b * x) with 0 by lra. replace (a * y - b * y) with 0 by lra. replace (a * z - b * z) with 0 by lra. replace (a * v - b * v) with 0 by lra. ring. }
  rewrite U in H. lra.
Qed.

Definition sound (f : surf) : Prop := surf_ok f /\ (s_nscale f = 1 \/ s_nscale f = -1).
(** What is around the end of a row that another row goes on from *)
Definition junction (comps : list shape) (w w' : row) : Prop :=
  let x := here (row_end w) in
  exists f n, In f (flat_map surface_ids comps) /\ s_id f = row_surf w /\ world_normal f x = Some n /\ unit n /\ vdot (row_tilt w) n <> 0 /\
  ((s_mat f = Mirror /\ row_idx w' = row_idx w /\ mirrored (row_tilt w) (row_tilt w') n /\
      exists eps, 0 < eps /\ forall s g, In s comps -> of_glass s g -> fixed (inside s) (ball x eps)) \/
   (exists s g n2, In s comps /\ In f (surface_ids s) /\ of_glass s g /\ s_mat f = Refractor g /\ g (row_wl w) = Fin n2 /\ vw n = 0 /\ sided (inside s) x n /\
      (exists eps, 0 < eps /\ forall s g, In s comps -> of_glass s g -> fixed (inside s) (ball x eps) \/ (In f (surface_ids s) /\ sided (inside s) x n)) /\
      (forall u, unit u -> vw u = 0 ->
        (vdot n u < 0 -> starts_in comps (row_wl w) (Ray x u) n2) /\ (0 < vdot n u -> starts_in comps (row_wl w) (Ray x u) world_index)) /\
      let m := next_index (row_tilt w) n n2 world_index in
      (row_idx w * vnorm (tangential (row_tilt w) n) < m ->
         row_idx w' = m /\ vscale (row_idx w) (tangential (row_tilt w) n) = vscale m (tangential (row_tilt w') n) /\
         (if Rlt_dec 0 (vdot (row_tilt w) n) then 0 < vdot (row_tilt w') n else vdot (row_tilt w') n < 0)) /\
      (m <= row_idx w * vnorm (tangential (row_tilt w) n) -> row_idx w' = row_idx w /\ mirrored (row_tilt w) (row_tilt w') n))).
Lemma junctions : forall asort, argsort_ok asort -> forall comps w w', bench comps -> NoDup (map s_id (flat_map surface_ids comps)) ->
  (forall f, In f (flat_map surface_ids comps) -> sound f) -> leg asort comps w -> in_sight comps w -> bounce (flat_map surface_ids comps) w w' -> plain comps w w' ->
  junction comps w w'.
Proof.
  intros asort AS comps w w' BN ND OK (U & WD & len & LEN & EN & FH) (V & SEP) BO (AL & SM & TILT & _). pose proof BN as (B1 & _).
  set (x := here (row_end w)) in *. assert (WX : vw x = 1) by reflexivity.
  assert (WR : world_ray (way w)).
  { split; [reflexivity|]. split; [exact WD|]. intros (X & Y & Z). cbn in X, Y, Z. unfold unit, vdot in U. rewrite X, Y, Z, WD in U. lra. }
  destruct (proj1 (first_crossing asort AS comps (way w) len (row_surf w) WR V LEN (SEP len)) FH) as (_ & s & f & I & ME & F & _ & EF).
  assert (FF : In f (flat_map surface_ids comps)) by (apply in_flat_map; eauto).
  destruct BO as (f0 & n & F0 & E0 & NO & UN & BO). assert (f0 = f) by (apply (same_surface (flat_map surface_ids comps)); auto; congruence). subst f0. fold x in NO.
  assert (TN : vdot (row_tilt w) n <> 0) by (apply (TILT f n); auto).
  destruct (OK f FF) as (SO & KS). destruct AL as (eps & EP & AL).
  assert (ALF : forall g, In g (flat_map surface_ids comps) -> s_id g <> s_id f -> fixed (placed g) (ball x eps)).
  { intros g G N. destruct (AL g G ltac:(congruence)) as [H|H]; [left|right]; intros y (WY & Y); apply H; auto. }
  exists f, n. repeat (split; [assumption|]). destruct (s_mat f) as [| |idx|] eqn:MF; try contradiction.
  - left. split; auto. destruct BO as (BI & BM). split; auto. split; auto. exists eps. split; auto. intros s' g I' G.
    destruct (glass_near comps f x eps n BN ND FF EP WX ALF KS) with (s := s') (g := g) as [H|(H & _)]; auto.
    + intros (idx & E). congruence.
    + exfalso. destruct G as (_ & G). specialize (G f H). congruence.
  - right. destruct (B1 s I) as (m & MM & H). assert (EM : m = Refractor idx) by (rewrite <- (MM f F); auto). destruct (H idx EM) as (NP & _). subst m.
    assert (SH : sheet s = false) by (destruct s as [g b|]; [apply NP; left; reflexivity|reflexivity]).
    assert (G : of_glass s idx) by (split; auto).
    destruct (SM f FF EF (NP f F)) as (SM1 & SM2). destruct (placed_sided f x SO WX KS SM1 SM2) as (n' & NO' & UN' & WN & SD).
    assert (n' = n) by congruence. subst n'.
    assert (LOC : forall s g, In s comps -> of_glass s g -> fixed (inside s) (ball x eps) \/ (In f (surface_ids s) /\ sided (inside s) x n)).
    { apply (glass_near comps f x eps n BN ND FF EP WX ALF KS). intros _. exact SD. }
    assert (SI : sided (inside s) x n).
    { destruct (LOC s idx I G) as [FX|(_ & SI)]; auto. exfalso. unfold meets in ME. rewrite SH in ME. unfold crosses in ME.
      assert (NEAR : forall t, Rabs (len - t) < eps -> ball x eps (ray_at (way w) t)).
      { intros t T. rewrite (way_back w len t WD EN). fold x. apply on_way; auto; [apply unit_neg; auto|]. unfold vscale; cbn; rewrite WD; ring. }
      assert (PQ : forall P Q : R -> Prop, passes P Q len -> exists t t', Rabs (len - t) < eps /\ Rabs (len - t') < eps /\ P t /\ Q t').
      { intros P Q (e & E & HP & HQ). pose proof (Rmin_l e eps). pose proof (Rmin_r e eps). assert (0 < Rmin e eps) by (apply Rmin_glb_lt; auto).
        exists (len - Rmin e eps / 2), (len + Rmin e eps / 2). split; [rewrite Rabs_right; lra|]. split; [rewrite Rabs_left; lra|]. split; [apply HP; lra|apply HQ; lra]. }
      destruct ME as [ME|ME]; destruct (PQ _ _ ME) as (t & t' & T & T' & P & Q); destruct FX as [FX|FX].
      - apply Q. apply FX, NEAR, T'.
      - apply (FX _ (NEAR _ T)). exact P.
      - apply P. apply FX, NEAR, T.
      - apply (FX _ (NEAR _ T')). exact Q. }
    destruct BO as (n2 & G2 & BO). exists s, idx, n2. do 3 (split; [assumption|]). split; [reflexivity|]. do 3 (split; [assumption|]). split; [exists eps; auto|]. split; [|exact BO].
    apply (parted comps (row_wl w) f s idx x eps n n2); auto.
Qed.

(** The step from one row to the next *)
Lemma turns : forall comps w w', bench comps -> unit (row_tilt w) -> vw (row_tilt w) = 0 -> unit (row_tilt w') -> vw (row_tilt w') = 0 -> junction comps w w' ->
  starts_in comps (row_wl w) (Ray (here (row_end w)) (vscale (-1) (row_tilt w))) (row_idx w) ->
  starts_in comps (row_wl w) (Ray (here (row_end w)) (row_tilt w')) (row_idx w').
Proof.
  intros comps w w' BN U WD U' WD' (f & n & _ & _ & _ & UN & TN & [(_ & EI & _ & eps & EP & FX)|(s & g & n2 & I & F & G & MF & G2 & WN & SI & _ & PA & RF & RT)]) ST.
  - rewrite EI. apply (unparted comps (row_wl w) (here (row_end w)) eps (row_idx w) EP eq_refl FX (vscale (-1) (row_tilt w))); auto; [apply unit_neg; auto|].
    unfold vscale; cbn; rewrite WD; ring.
  - set (x := here (row_end w)) in *. assert (UB := unit_neg _ U). assert (WB : vw (vscale (-1) (row_tilt w)) = 0) by (unfold vscale; cbn; rewrite WD; ring).
    destruct (PA _ UB WB) as (P1 & P2). destruct (PA _ U' WD') as (P1' & P2'). rewrite vdot_neg, (vdot_comm n) in P1, P2. rewrite (vdot_comm n) in P1', P2'.
    unfold next_index in RF, RT. destruct (Rlt_dec 0 (vdot (row_tilt w) n)) as [X|X].
    + assert (EI : row_idx w = n2) by (apply (starts_unique comps (row_wl w) (Ray x (vscale (-1) (row_tilt w)))); auto; apply P1; lra).
      destruct (Rlt_dec (row_idx w * vnorm (tangential (row_tilt w) n)) world_index) as [Y|Y].
      * destruct (RF Y) as (-> & _ & Z). apply P2'. lra.
      * destruct (RT ltac:(lra)) as (-> & Z & _). rewrite EI. apply P1'. lra.
    + assert (EI : row_idx w = world_index) by (apply (starts_unique comps (row_wl w) (Ray x (vscale (-1) (row_tilt w)))); auto; apply P2; lra).
      destruct (Rlt_dec (row_idx w * vnorm (tangential (row_tilt w) n)) n2) as [Y|Y].
      * destruct (RF Y) as (-> & _ & Z). apply P1'. lra.
      * destruct (RT ltac:(lra)) as (-> & Z & _). rewrite EI. apply P2'. lra.
Qed.
Lemma clear_way : forall asort, argsort_ok asort -> forall comps w, leg asort comps w -> in_sight comps w ->
  exists len, 0 < len /\ row_end w = vadd (row_start w) (vscale len (row_tilt w)) /\
  forall s, In s comps -> sheet s = false -> steady (fun t => inside s (ray_at (way w) t)) 0 len.
Proof.
  intros asort AS comps w (U & WD & len & LEN & EN & FH) (V & SEP). exists len. split; auto. split; auto. intros s I SH.
  assert (WR : world_ray (way w)).
  { split; [reflexivity|]. split; [exact WD|]. intros (X & Y & Z). cbn in X, Y, Z. unfold unit, vdot in U. rewrite X, Y, Z, WD in U. lra. }
  destruct (proj1 (first_crossing asort AS comps (way w) len (row_surf w) WR V LEN (SEP len)) FH) as (H & _). specialize (H s I). unfold undisturbed in H. rewrite SH in H. exact H.
Qed.
Lemma index_back : forall comps w w', unit (row_tilt w) -> vw (row_tilt w) = 0 -> junction comps w w' -> index_true comps w ->
  starts_in comps (row_wl w) (Ray (here (row_end w)) (vscale (-1) (row_tilt w))) (row_idx w).
Proof.
  intros comps w w' U WD (f & n & _ & _ & _ & UN & TN & J) (len & LEN & EN & (L & M)).
  assert (LOC : exists eps, 0 < eps /\ forall s g, In s comps -> of_glass s g -> fixed (inside s) (ball (here (row_end w)) eps) \/ (In f (surface_ids s) /\ sided (inside s) (here (row_end w)) n)).
  { destruct J as [(_ & _ & _ & eps & EP & FX)|(s & g & n2 & _ & _ & _ & _ & _ & _ & _ & LOC & _)]; [exists eps; split; auto; intros s g I G; left; apply (FX s g); auto|exact LOC]. }
  destruct LOC as (eps & EP & LOC).
  apply (seen_back comps (row_wl w) (here (row_end w)) (row_tilt w) len (row_idx w) f LEN eq_refl U WD eps n EP LOC TN).
  exists L. intros t T N. rewrite <- way_back by auto. apply M; auto.
Qed.
Lemma index_step : forall asort, argsort_ok asort -> forall comps w w', bench comps -> NoDup (map s_id (flat_map surface_ids comps)) ->
  (forall f, In f (flat_map surface_ids comps) -> sound f) -> leg asort comps w -> leg asort comps w' -> in_sight comps w -> in_sight comps w' -> follows w w' ->
  bounce (flat_map surface_ids comps) w w' -> plain comps w w' -> row_wl w' = row_wl w -> index_true comps w -> index_true comps w'.
Proof.
  intros asort AS comps w w' BN ND OK LW LW' IS IS' FO BO PL EW IT. pose proof LW as (U & WD & _). pose proof LW' as (U' & WD' & _).
  pose proof (junctions asort AS comps w w' BN ND OK LW IS BO PL) as JU.
  destruct (turns comps w w' BN U WD U' WD' JU (index_back comps w w' U WD JU IT)) as (e & E & ST).
  destruct (clear_way asort AS comps w' LW' IS') as (len & LEN & EN & CL). destruct PL as (_ & _ & _ & eps & EP & GAP).
  exists len. split; auto. split; auto. rewrite EW.
  assert (OFF : 0 < ray_offset_value) by (unfold ray_offset_value; lra).
  destruct (medium_steady comps (row_wl w) (Ray (here (row_end w)) (row_tilt w')) (row_idx w') 0 (ray_offset_value + len) e) as (L & M); auto; [|lra|].
  - intros s I SH. apply (steady_join _ 0 ray_offset_value (ray_offset_value + eps)); try lra.
    + specialize (GAP s I). unfold undisturbed in GAP. rewrite SH in GAP. exact GAP.
    + assert (X := CL s I SH).
      assert (Y : steady (fun t => inside s (ray_at (Ray (here (row_end w)) (row_tilt w')) (ray_offset_value + t))) 0 len).
      { destruct X as [(L & X)|(L & X)]; [left|right]; exists L; intros t T N; rewrite <- (way_on w w' t WD' FO); apply X; auto. }
      apply (steady_shift (fun t => inside s (ray_at (Ray (here (row_end w)) (row_tilt w')) t)) 0 len ray_offset_value) in Y.
      rewrite Rplus_0_r in Y. exact Y.
  - exists (map (fun t => t - ray_offset_value) L). intros t T N. rewrite (way_on w w' t WD' FO). apply M; [lra|]. intro J. apply N. apply in_map_iff. exists (ray_offset_value + t). split; auto. ring.
Qed.
Theorem indices_true : forall asort, argsort_ok asort -> forall gen h t comps fuel t', proper gen h t comps -> bench comps ->
  trace asort h gen fuel t = TOk t' -> forall i rows c, rows = rows_with_id i (f_rows (get_results t')) ->
  nth_error (source_rays gen t) i = Some c -> starts_in comps (c_wl c) (c_ray c) (c_idx c) ->
  (forall w, In w rows -> in_sight comps w) ->
  (forall j w w', nth_error rows j = Some w -> nth_error rows (S j) = Some w' -> plain comps w w') ->
  forall w, In w rows -> index_true comps w.
Proof.
  intros asort AS gen h t comps fuel t' PR BN T i rows c ER NC ST IS PL w W.
  pose proof PR as ((_ & _ & ND) & _ & _ & _ & PO).
  assert (OK : forall f, In f (flat_map surface_ids comps) -> sound f).
  { intros f F. destruct (PO f F) as (A & B & C & _ & D & _). split; auto. split; auto. }
  destruct (proper_bounces asort AS _ _ _ _ _ _ PR T i rows ER) as (B0 & B & _).
  destruct (proper_legs asort AS _ _ _ _ _ _ PR T) as (LG & FO).
  assert (IN : forall j w, nth_error rows j = Some w -> In w rows /\ In w (f_rows (get_results t')) /\ row_id w = i).
  { intros j v J. pose proof (nth_error_In _ _ J) as X. split; auto. rewrite ER in X. apply in_rows_with_id in X. exact X. }
  apply In_nth_error in W. destruct W as (j & J). revert w J. induction j as [|j IH]; intros w' J'.
  - destruct (B0 w' J') as (c0 & NC0 & FR). rewrite NC in NC0. injection NC0 as <-. destruct (IN _ _ J') as (W & WF & WI).
    destruct (clear_way asort AS comps w' (LG w' WF) (IS w' W)) as (len & LEN & EN & CL). exists len. split; auto. split; auto.
    destruct FR as (F1 & F2 & F3 & F4 & _ & _). rewrite F3, F4. destruct ST as (e & E & ST).
    assert (WE : way w' = c_ray c).
    { unfold way. rewrite F1, F2. destruct PR as (_ & _ & _ & RO & _). destruct (RO c (nth_error_In _ _ NC)) as ((WO & _) & _).
      destruct (c_ray c) as [o d]. cbn [origin direction] in *. f_equal. destruct o as [p q r z]. unfold here, trim, vset_w. cbn in *. subst. reflexivity. }
    rewrite WE in *. apply (medium_steady comps (c_wl c) (c_ray c) (c_idx c) 0 len e); auto.
  - assert (X : exists w, nth_error rows j = Some w).
    { destruct (nth_error rows j) as [v|] eqn:N; [eauto|]. apply nth_error_None in N. assert (S j < length rows)%nat by (apply nth_error_Some; congruence). lia. }
    destruct X as (w & J). destruct (IN _ _ J) as (W & WF & WI). destruct (IN _ _ J') as (W' & WF' & WI').
    apply (index_step asort AS comps w w' BN ND OK); auto.
    + apply (FO i j); rewrite <- ER; auto.
    + apply (B j); auto.
    + apply (PL j); auto.
    + destruct (fields_carried _ _ _ _ _ _ T w WF) as (a & A1 & A2 & _). destruct (fields_carried _ _ _ _ _ _ T w' WF') as (b & B1 & B2 & _).
      rewrite WI in A1. rewrite WI' in B1. congruence.
Qed.
