(** * ReverseProps: a ray that is sent back retraces its path *)
From Coq Require Import Reals List Bool ZArith Lra Lia Psatz Classical_Prop.
Import ListNotations.
From Verif Require Import XR XRFacts Lin LinFacts Prim Csg Surf CsgProps SpecGeom SpecTree SpecNormal SpecOptics OpsFacts TreeFacts SurfFacts World SpecWorld Tracer SpecTrace TraceFacts5 TraceFacts7 TraceFacts9 TraceProps SpecCrossing Crossing CrossingProps PrismFacts PrismExamples2 SpecMedium NormalSides MediumFacts MediumProps SpecReverse ReverseFacts.
Open Scope R_scope.

Lemma leg_back : forall asort, argsort_ok asort -> forall comps w w' len' L, NoDup (map s_id (flat_map surface_ids comps)) ->
  (forall f, In f (flat_map surface_ids comps) -> sound f) -> leg asort comps w -> leg asort comps w' -> in_sight comps w -> in_sight comps w' -> follows w w' ->
  bounce (flat_map surface_ids comps) w w' -> plain comps w w' ->
  row_end w' = vadd (row_start w') (vscale len' (row_tilt w')) -> 0 < L <= ray_offset_value + len' ->
  let r := Ray (ray_at (Ray (here (row_end w)) (row_tilt w')) L) (vopp (row_tilt w')) in
  seen comps r -> first_hit asort comps r L (row_surf w) /\ ray_at r L = here (row_end w).
Proof.
  intros asort AS comps w w' len' L ND OK (U & WD & len & LEN & EN & FH) (U' & WD' & len1 & LEN1 & EN1 & FH1) (V & SEP) (V' & SEP') FO BO (AL & SM & TILT & eps & EP & GAP) EN' LL r (VR & SR).
  assert (len1 = len') by (apply (same_length w'); auto). subst len1.
  set (x := here (row_end w)) in *. assert (WX : vw x = 1) by reflexivity. set (d := row_tilt w') in *.
  assert (OFF : 0 < ray_offset_value) by (unfold ray_offset_value; lra).
  assert (WR : world_ray (way w)) by (apply world_unit; auto). assert (WR' : world_ray (way w')) by (apply world_unit; auto).
  assert (D' : vw (vopp d) = 0) by (unfold vopp, vscale; cbn; rewrite WD'; ring).
  assert (WB : world_ray r).
  { apply world_unit; [unfold ray_at; cbn [vw origin direction]; rewrite WX, WD'; ring|apply unit_opp; exact U'|exact D']. }
  assert (AT : forall t, ray_at r t = ray_at (Ray x d) (L - t)) by (intro; apply back_at; exact WD').
  assert (ON : forall t, ray_at (way w') t = ray_at (Ray x d) (ray_offset_value + t)) by (intro t; apply way_on; auto).
  assert (ATL : ray_at r L = x).
  { rewrite AT. unfold ray_at, x, here, vset_w. cbn [origin direction vx vy vz vw]. f_equal; try rewrite WD'; ring. }
  split; [|exact ATL].
  apply (proj2 (first_crossing asort AS comps r L (row_surf w) WB VR (proj1 LL) (SR L))). split.
  - (* nothing on the way *)
    intros s I. pose proof (proj1 (proj1 (first_crossing asort AS comps (way w') len' (row_surf w') WR' V' LEN1 (SEP' len')) FH1) s I) as CL. pose proof (GAP s I) as GS.
    unfold undisturbed in *. destruct (sheet s).
    + intros t T J. rewrite AT in J. destruct (Rlt_dec (L - t) (ray_offset_value + eps)) as [X|X]; [apply (GS (L - t)); [lra|exact J]|].
      apply (CL (L - t - ray_offset_value)); [lra|]. rewrite ON. replace (ray_offset_value + (L - t - ray_offset_value)) with (L - t) by ring. exact J.
    + assert (Y : steady (fun t => inside s (ray_at (Ray x d) t)) 0 (ray_offset_value + len')).
      { apply (steady_join _ 0 ray_offset_value (ray_offset_value + eps)); try lra; [exact GS|].
        assert (Z : steady (fun t => inside s (ray_at (Ray x d) (ray_offset_value + t))) 0 len').
        { destruct CL as [(M & X)|(M & X)]; [left|right]; exists M; intros t T N; rewrite <- ON; apply X; auto. }
        apply (steady_shift (fun t => inside s (ray_at (Ray x d) t)) 0 len' ray_offset_value) in Z. rewrite Rplus_0_r in Z. exact Z. }
      destruct Y as [(M & Y)|(M & Y)]; [left|right]; exists (map (fun u => L - u) M); intros t T N; rewrite AT; apply Y; try lra;
        intro J; apply N; apply in_map_iff; exists (L - t); split; auto; ring.
  - (* the same surface at the same point *)
    destruct (proj1 (first_crossing asort AS comps (way w) len (row_surf w) WR V LEN (SEP len)) FH) as (_ & s & f & I & ME & F & _ & EF).
    assert (XL : ray_at (way w) len = x) by (symmetry; apply end_at; auto).
    assert (FF : In f (flat_map surface_ids comps)) by (apply in_flat_map; eauto).
    exists s, f. split; auto. destruct (sheet s) eqn:SH.
    + assert (ML : meets s r L) by (unfold meets in *; rewrite SH in *; rewrite ATL, <- XL; exact ME).
      split; auto. split; auto. split; auto. destruct s as [g b|]; [|discriminate]. destruct F as [-> | []].
      pose proof (proj2 (sheet_hits asort r WB (Leaf f b) SH (VR _ I) L)) as H. cbn [shape_intersect fst] in H. apply H. unfold meets in ML. rewrite SH in ML. exact ML.
    + assert (NP : is_plane (s_prim f) = false).
      { destruct (VR s I) as ([B|B] & _); [congruence|]. apply B. exact F. }
      destruct (OK f FF) as (SO & KS). destruct (SM f FF EF NP) as (SM1 & SM2). destruct (placed_sided f x SO WX KS SM1 SM2) as (n & NO & UN & WN & SD).
      destruct (bounce_tilted _ w w' f n ND BO FF EF NO (TILT f n FF EF NO)) as (_ & TN).
      assert (CF : crosses (fun t => placed f (ray_at r t)) L).
      { apply (sided_crosses (placed f) x (vscale (s_nscale f) n) d L WD'); [|exact SD].
        assert (E : vdot (vscale (s_nscale f) n) d = s_nscale f * vdot d n) by (unfold vdot, vscale; cbn; ring). rewrite E. fold d in TN. destruct KS as [-> | ->]; lra. }
      assert (HIT : In (Fin L) (surf_hits f r)).
      { apply crossing_hit; auto. destruct (VR s I) as (_ & _ & _ & _ & G). clear - G F. revert G F. induction s as [g b|i op b l IHl q IHq]; intros G F.
        - destruct F as [-> | []]. exact G.
        - destruct G as (_ & GL & GR). cbn [surface_ids] in F. apply in_app_iff in F. destruct F as [F|F]; auto. }
      split; [|auto]. unfold meets in *. rewrite SH in *. destruct AL as (e & E & AL).
      assert (SE : exists sg, In (f, sg) (signed s true)).
      { pose proof F as F'. rewrite <- (signed_surfaces s true) in F'. apply in_map_iff in F'. destruct F' as ((f0 & e0) & E0 & I0). cbn in E0. subst f0. eauto. }
      destruct SE as (sg & SE).
      assert (NEAR : forall t, Rabs (t - len) < e -> ball x e (ray_at (way w) t)).
      { intros t T. rewrite (way_back w len t WD EN). fold x. apply on_way; auto; [apply unit_neg; auto|unfold vscale; cbn; rewrite WD; ring|]. rewrite Rabs_minus_sym. exact T. }
      assert (NEAR' : forall t, Rabs (t - L) < e -> ball x e (ray_at r t)).
      { intros t T. rewrite AT. apply on_way; auto. rewrite Rabs_minus_sym. exact T. }
      destruct (tree_like (ball x e) f s true sg SE) as [FX|LK].
      * apply (ids_part comps); auto.
      * intros g G N. destruct (AL g) as [H|H]; [apply in_flat_map; eauto|congruence|left|right]; intros y (WY & Y); apply H; auto.
      * exfalso. assert (PQ : forall P Q : R -> Prop, passes P Q len -> exists t t', Rabs (t - len) < e /\ Rabs (t' - len) < e /\ P t /\ Q t').
        { intros P Q (k & K & HP & HQ). pose proof (Rmin_l k e). pose proof (Rmin_r k e). assert (0 < Rmin k e) by (apply Rmin_glb_lt; auto).
          exists (len - Rmin k e / 2), (len + Rmin k e / 2). split; [rewrite Rabs_left; lra|]. split; [rewrite Rabs_right; lra|]. split; [apply HP; lra|apply HQ; lra]. }
        destruct ME as [ME|ME]; destruct (PQ _ _ ME) as (t & t' & T & T' & P & Q); destruct FX as [FX|FX].
        -- apply Q. apply FX, NEAR, T'.
        -- apply (FX _ (NEAR _ T)). exact P.
        -- apply P. apply FX, NEAR, T.
        -- apply (FX _ (NEAR _ T')). exact Q.
      * apply (crosses_like _ (fun t => placed f (ray_at r t)) L e (Bool.eqb sg true) E); [|exact CF]. intros t T. exact (LK _ (NEAR' t T)).
Qed.

Lemma index_positive : forall gen h t comps c w, proper gen h t comps -> In c (source_rays gen t) -> row_wl w = c_wl c -> index_true comps w -> 0 < row_idx w.
Proof.
  intros gen h t comps c w (_ & _ & _ & _ & PO) IC EW (len & LEN & _ & (L & M)). destruct (avoid L 0 len LEN) as (u & LU & NU).
  destruct (M u LU NU) as [(s & g & I & (SH & MG) & _ & E)|(_ & E)]; [|rewrite E; unfold world_index; lra].
  destruct (surface_ids s) as [|f l] eqn:SI; [elim (has_surface s SI)|]. assert (F : In f (surface_ids s)) by (rewrite SI; left; reflexivity). destruct (PO f) as (_ & _ & _ & _ & _ & O); [apply in_flat_map; eauto|]. rewrite (MG f F) in O. cbn in O.
  destruct (O (row_wl w)) as (n & E' & P); [exists c; auto|]. congruence.
Qed.

Section Retrace.
  Variable asort : list xr -> list nat.
  Hypothesis AS : argsort_ok asort.
  Variables (comps : list shape) (gen : loc -> nat -> list col) (h : heap) (t : tracer) (fuel : nat) (t' : tracer) (i : nat) (rows : list row) (c : col).
  Hypothesis PR : proper gen h t comps.
  Hypothesis BN : bench comps.
  Hypothesis T : trace asort h gen fuel t = TOk t'.
  Hypothesis ER : rows = rows_with_id i (f_rows (get_results t')).
  Hypothesis NC : nth_error (source_rays gen t) i = Some c.
  Hypothesis ST : starts_in comps (c_wl c) (c_ray c) (c_idx c).
  Hypothesis IS : forall w, In w rows -> in_sight comps w.
  Hypothesis PL : forall j w w', nth_error rows j = Some w -> nth_error rows (S j) = Some w' -> plain comps w w'.

  Lemma ids_once : NoDup (map s_id (flat_map surface_ids comps)).
  Proof. destruct PR as ((_ & _ & ND) & _). exact ND. Qed.
  Lemma all_sound : forall f, In f (flat_map surface_ids comps) -> sound f.
  Proof. intros f F. destruct PR as (_ & _ & _ & _ & PO). destruct (PO f F) as (A & B & C & _ & D & _). split; auto. split; auto. Qed.
  Lemma row_facts : forall j w, nth_error rows j = Some w -> leg asort comps w /\ in_sight comps w /\ index_true comps w /\ 0 < row_idx w /\ row_wl w = c_wl c.
  Proof.
    intros j w J. pose proof (nth_error_In _ _ J) as W. assert (IT : index_true comps w) by (eapply indices_true; eauto).
    assert (X : In w (f_rows (get_results t')) /\ row_id w = i) by (rewrite ER in W; apply in_rows_with_id in W; exact W). destruct X as (WF & WI).
    destruct (proper_legs asort AS _ _ _ _ _ _ PR T) as (LG & _). destruct (fields_carried _ _ _ _ _ _ T w WF) as (a & A1 & A2 & _).
    rewrite WI, NC in A1. injection A1 as <-. repeat (split; auto). apply (index_positive gen h t comps c); auto. eapply nth_error_In; eauto.
  Qed.
  Lemma step_facts : forall j w w', nth_error rows j = Some w -> nth_error rows (S j) = Some w' ->
    follows w w' /\ bounce (flat_map surface_ids comps) w w' /\ plain comps w w' /\ junction comps w w'.
  Proof.
    intros j w w' J J'. destruct (row_facts j w J) as (L & S & _). destruct (proper_bounces asort AS _ _ _ _ _ _ PR T i rows ER) as (_ & B & _).
    destruct (proper_legs asort AS _ _ _ _ _ _ PR T) as (_ & FO). assert (BO := B _ _ _ J J'). assert (P := PL _ _ _ J J').
    split; [apply (FO i j); rewrite <- ER; auto|]. split; auto. split; auto. apply (junctions asort AS comps w w' BN ids_once all_sound); auto.
  Qed.
  Lemma not_absorbing : forall w w', junction comps w w' -> exists f, In f (flat_map surface_ids comps) /\ s_id f = row_surf w /\ s_mat f <> Absorber.
  Proof.
    intros w w' (f & n & F & E & _ & _ & _ & [(M & _)|(s & g & n2 & _ & _ & _ & M & _)]); exists f; (split; [exact F|split; [exact E|congruence]]).
  Qed.

  Variables (gen2 : loc -> nat -> list col) (h2 : heap) (t2 : tracer) (fuel2 : nat) (t2' : tracer) (i2 : nat) (back : list row) (c2 : col).
  Hypothesis PR2 : proper gen2 h2 t2 comps.
  Hypothesis T2 : trace asort h2 gen2 fuel2 t2 = TOk t2'.
  Hypothesis ER2 : back = rows_with_id i2 (f_rows (get_results t2')).
  Hypothesis NC2 : nth_error (source_rays gen2 t2) i2 = Some c2.
  Variables (k : nat) (last : row).
  Hypothesis LAST : nth_error rows k = Some last.
  Hypothesis SB : sent_back last c2.
  Hypothesis SEEN : forall j w, (0 < j < k)%nat -> nth_error rows j = Some w -> seen comps (returned w).
  Hypothesis SEEN2 : seen comps (c_ray c2).
  Hypothesis LIM : (Z.of_nat k <= t_limit t2)%Z.

  Lemma row_at : forall j, (j <= k)%nat -> exists w, nth_error rows j = Some w.
  Proof.
    intros j J. destruct (nth_error rows j) as [w|] eqn:E; [eauto|]. apply nth_error_None in E.
    assert (k < length rows)%nat by (apply nth_error_Some; congruence). lia.
  Qed.
  (** The ray sent back from the end of a row meets the surface the row came from *)
  Lemma hit_back : forall j w w', (S j < k)%nat -> nth_error rows j = Some w -> nth_error rows (S j) = Some w' ->
    exists q, first_hit asort comps (returned w') q (row_surf w) /\ ray_at (returned w') q = here (row_end w).
  Proof.
    intros j w w' JK J J'. destruct (row_facts _ _ J) as (L & S & _). destruct (row_facts _ _ J') as (L' & S' & _). destruct (step_facts _ _ _ J J') as (FO & BO & P & _).
    pose proof L' as (U' & WD' & len' & LEN' & EN' & _). exists len'.
    assert (OFF : 0 < ray_offset_value) by (unfold ray_offset_value; lra).
    assert (E : returned w' = Ray (ray_at (Ray (here (row_end w)) (row_tilt w')) len') (vopp (row_tilt w'))).
    { unfold returned. f_equal. destruct FO as (FO & _). rewrite EN', FO. unfold here, ray_at, vadd, vscale, vopp, vset_w. destruct (row_end w) as [a b c0 e0], (row_tilt w') as [a' b' c' e'].
      unfold vscale. cbn in *. subst. f_equal; ring. }
    rewrite E. apply (leg_back asort AS comps w w' len' len' ids_once all_sound); auto; [lra|]. rewrite <- E. apply (SEEN (Datatypes.S j)); auto. lia.
  Qed.
  Lemma start_back : forall j w, S j = k -> nth_error rows j = Some w ->
    exists q, first_hit asort comps (c_ray c2) q (row_surf w) /\ ray_at (c_ray c2) q = here (row_end w).
  Proof.
    intros j w K J. rewrite <- K in LAST. destruct (row_facts _ _ J) as (L & S & _). destruct (row_facts _ _ LAST) as (L' & S' & _). destruct (step_facts _ _ _ J LAST) as (FO & BO & P & _).
    pose proof L' as (U' & WD' & _). destruct SB as (_ & _ & DI & s & len & EN & SL & OR).
    assert (OFF : 0 < ray_offset_value) by (unfold ray_offset_value; lra). exists (ray_offset_value + s).
    assert (E : c_ray c2 = Ray (ray_at (Ray (here (row_end w)) (row_tilt last)) (ray_offset_value + s)) (vopp (row_tilt last))).
    { rewrite <- (way_on w last s WD' FO), <- OR, <- DI. destruct (c_ray c2); reflexivity. }
    rewrite E. apply (leg_back asort AS comps w last len (ray_offset_value + s) ids_once all_sound); auto; [lra|]. rewrite <- E. exact SEEN2.
  Qed.
  (** Row [m] of the way back *)
  Lemma rows_back : forall m w w', (m < k)%nat -> nth_error rows (k - m) = Some w' -> nth_error rows (k - S m) = Some w ->
    exists v, nth_error back m = Some v /\ leg asort comps v /\ against w' v /\ ends_like w v /\ row_gen v = m /\ row_wl v = c_wl c.
  Proof.
    destruct (proper_legs asort AS _ _ _ _ _ _ PR2 T2) as (LG2 & _).
    assert (IN2 : forall m v, nth_error back m = Some v -> In v (f_rows (get_results t2'))).
    { intros m v M. apply nth_error_In in M. rewrite ER2 in M. apply in_rows_with_id in M. apply M. }
    destruct SB as (WL2 & IX2 & DI2 & _). destruct (row_facts _ _ LAST) as ((UL & WDL & _) & _ & _ & _ & WLL).
    induction m as [|m IH]; intros w w' M J' J.
    - rewrite Nat.sub_0_r in J'. rewrite LAST in J'. injection J' as <-. destruct (start_back (k - 1)%nat w ltac:(lia) J) as (q & FH & EQ).
      destruct back as [|v rest] eqn:EB.
      + exfalso. rewrite <- EB in *. assert (X : rows_with_id i2 (f_rows (get_results t2')) = []) by (rewrite <- ER2; exact EB).
        destruct PR2 as ((SHP & _) & _). apply (no_row asort AS _ _ _ _ _ comps T2 SHP i2 c2 NC2) in X. destruct X as [X|X].
        * unfold stopped in X. rewrite DI2, vnorm_opp in X. unfold vnorm in X. rewrite UL, sqrt_1 in X. unfold atol in X. lra.
        * destruct FH as (a & b & R & _). elim (X _ _ _ _ R).
      + exists v. split; [reflexivity|]. destruct (proper_bounces asort AS _ _ _ _ _ _ PR2 T2 i2 (v :: rest) ER2) as (B0 & _ & _).
        destruct (B0 v eq_refl) as (c0 & NC0 & (F1 & F2 & F3 & F4 & F5 & _)). rewrite NC2 in NC0. injection NC0 as <-.
        assert (LV : leg asort comps v) by (apply LG2, (IN2 0%nat); reflexivity). split; auto.
        assert (WE : Ray (here (row_start v)) (row_tilt v) = c_ray c2).
        { rewrite F1, F2. destruct PR2 as (_ & _ & _ & RO & _). destruct (RO c2 (nth_error_In _ _ NC2)) as ((WO & _) & _).
          destruct (c_ray c2) as [o d]. cbn [origin direction] in *. f_equal. destruct o as [p q0 r z]. unfold here, trim, vset_w. cbn in *. subst. reflexivity. }
        destruct (leg_end asort comps v _ q (row_surf w) LV WE FH) as (E1 & E2).
        split; [split; congruence|]. split; [split; congruence|]. split; [|congruence].
        rewrite F5. destruct PR2 as (_ & _ & _ & RO & _). apply (RO c2 (nth_error_In _ _ NC2)).
    - (* from row m to row S m: the turn at the end of [w'], the leg along [w'] *)
      destruct (row_at (k - m)) as (w1 & J1); [lia|]. assert (E1 : (k - m = S (k - S m))%nat) by lia. rewrite E1 in J1.
      assert (E2 : (k - S m = S (k - S (S m)))%nat) by lia. pose proof J' as J'2. rewrite E2 in J'2.
      destruct (IH w' w1 ltac:(lia) ltac:(rewrite E1; exact J1) J') as (v & V & LV & AG & EL & GV & WV).
      destruct (row_facts _ _ J') as ((U & WD & _) & _ & IT & POS & WW). destruct (row_facts _ _ J1) as ((U1 & WD1 & _) & _).
      destruct (step_facts _ _ _ J' J1) as (_ & _ & _ & JU). destruct (not_absorbing _ _ JU) as (f & F & EF & MF).
      destruct (hit_back (k - S (S m))%nat _ _ ltac:(lia) J J'2) as (q & FH & EQ).
      assert (TURN : forall u, bounce (flat_map surface_ids comps) v u -> unit (row_tilt u) -> against w' u).
      { intros u BU UU. apply (turned_back comps w' w1 v u BN ids_once); auto. congruence. }
      assert (RET : forall u, follows v u -> against w' u -> Ray (here (row_start u)) (row_tilt u) = returned w').
      { intros u (FU & _) (TU & _). unfold returned. rewrite FU, TU. f_equal. destruct EL as (EL & _). revert EL. unfold here, vadd, vset_w. cbn. intro EL. injection EL as -> -> ->. reflexivity. }
      destruct (advance asort AS gen2 h2 t2 comps fuel2 t2' i2 m v f PR2 T2) as (u & NU & FU & BU & LU & WU); auto.
      + rewrite <- ER2. exact V.
      + rewrite GV. lia.
      + destruct EL as (_ & EL). congruence.
      + intros u FU BU UU WU. exists q, (row_surf w). rewrite RET; auto.
      + exists u. rewrite <- ER2 in NU. split; auto. split; auto. assert (AU : against w' u) by (apply TURN; auto; apply LU). split; auto.
        destruct (leg_end asort comps u _ q (row_surf w) LU (RET u FU AU) FH) as (X1 & X2). split; [split; congruence|]. split; [|congruence].
        destruct FU as (_ & FU). congruence.
  Qed.
  Theorem retraced : forall j w w', (j < k)%nat -> nth_error rows j = Some w -> nth_error rows (S j) = Some w' ->
    exists v, nth_error back (k - S j) = Some v /\ against w' v /\ ends_like w v.
  Proof.
    intros j w w' J W W'. assert (K1 : (k - (k - S j) = S j)%nat) by lia. assert (K2 : (k - S (k - S j) = j)%nat) by lia.
    destruct (rows_back (k - S j) w w') as (v & V & _ & A & E & _); [lia|rewrite K1; exact W'|rewrite K2; exact W|]. eauto.
  Qed.
  Theorem retraced_out : forall w v, (0 < k)%nat -> nth_error rows 0 = Some w -> nth_error back k = Some v ->
    against w v /\ here (row_start v) = ray_at (Ray (here (row_end w)) (row_tilt v)) ray_offset_value.
  Proof.
    intros w v K W V. destruct (row_at 1) as (w1 & W1); [lia|]. assert (K1 : (k - (k - 1) = 1)%nat) by lia. assert (K2 : (k - S (k - 1) = 0)%nat) by lia.
    destruct (rows_back (k - 1) w w1) as (u & NU & LU & AU & EU & GU & WU); [lia|rewrite K1; exact W1|rewrite K2; exact W|].
    destruct (row_facts _ _ W) as ((U & WD & _) & _ & IT & POS & WW). destruct (row_facts _ _ W1) as ((U1 & WD1 & _) & _). destruct (step_facts _ _ _ W W1) as (_ & _ & _ & JU).
    destruct (proper_bounces asort AS _ _ _ _ _ _ PR2 T2 i2 back ER2) as (_ & B & _). destruct (proper_legs asort AS _ _ _ _ _ _ PR2 T2) as (LG2 & FO2).
    assert (V' : nth_error back (S (k - 1)) = Some v) by (replace (S (k - 1)) with k by lia; exact V).
    assert (BU := B _ _ _ NU V'). assert (LV : leg asort comps v).
    { apply LG2. apply nth_error_In in V. rewrite ER2 in V. apply in_rows_with_id in V. apply V. }
    assert (AV : against w v). { apply (turned_back comps w w1 u v BN ids_once); auto; [apply LV|congruence]. }
    split; auto. assert (FO : follows u v) by (apply (FO2 i2 (k - 1)%nat); rewrite <- ER2; auto). destruct FO as (FO & _). rewrite FO.
    destruct EU as (EU & _). revert EU. destruct LV as (_ & WV & _). unfold here, vadd, vset_w, vscale, ray_at. cbn. intro EU. injection EU as -> -> ->. rewrite WV. f_equal; ring.
  Qed.
End Retrace.
