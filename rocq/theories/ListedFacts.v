(** * ListedFacts: surfaces that are listed several times or not at all *)
From Coq Require Import Reals List Bool ZArith Lia Lra Psatz.
Import ListNotations.
From Verif Require Import XR Arr Lin LinFacts Ops Prim Csg Surf World SpecWorld SpecOptics Tracer SpecTrace
  XRFacts CsgProps SpecTree TreeFacts WorldFacts WorldFacts2 WorldFacts3 WorldProps TraceFacts TraceFacts2 TraceFacts3 TraceFacts4 TraceFacts8 WorldFacts4 BuildFacts SpecListed.
Open Scope R_scope.

Lemma cell_pass_nan : forall lut h, cell_pass lut (h, None) = (h, None).
Proof.
  induction lut as [|e lut IH]; intro h; [reflexivity|].
  change (cell_pass (e :: lut) (h, None)) with (cell_pass lut (if Z.eqb (snd h) (fst e) then (h, None) else (h, None))).
  destruct (Z.eqb (snd h) (fst e)); apply IH.
Qed.
Lemma cell_pass_listed : forall known s t sid, (forall s', In s' known -> s_id s' = sid -> s' = s) -> forall c,
  snd (cell_pass (table known) ((Fin t, sid), Some c)) = met_again (listed known sid) s t c.
Proof.
  induction known as [|k known IH]; intros s t sid U c; [reflexivity|].
  change (cell_pass (table (k :: known)) ((Fin t, sid), Some c)) with
    (cell_pass (table known) (if Z.eqb sid (s_id k) then ((Fin t, sid), material_trace k (forward t c)) else ((Fin t, sid), Some c))).
  unfold listed. cbn [filter]. rewrite (Z.eqb_sym (s_id k)). destruct (Z.eqb sid (s_id k)) eqn:E.
  - apply Z.eqb_eq in E. assert (k = s) by (apply U; [left; auto|auto]). subst k. cbn [length met_again].
    destruct (material_trace s (forward t c)) as [c'|]; [|rewrite cell_pass_nan; reflexivity].
    apply IH. intros s' I. apply U. right; auto.
  - apply IH. intros s' I. apply U. right; auto.
Qed.

(** a surface of an object, found again in the heap *)
Lemma surface_at : forall h n l sh s, shape_fuel n h l = Some sh -> In s (surface_ids sh) ->
  exists x o p m, get h x = Some o /\ o_kind o = KSurf p m /\
    s = Surf (Z.of_nat (o_id o)) p (o_world o) (o_obj o) (o_nscale o) m.
Proof.
  intros h. induction n as [|n IH]; intros l sh s E I; [discriminate|]. cbn [shape_fuel] in E.
  destruct (get h l) as [o|] eqn:G; [|discriminate]. destruct (o_kind o) as [|p m|op a b|ms] eqn:K; try discriminate.
  - injection E as <-. destruct I as [<-|[]]. exists l, o, p, m. auto.
  - destruct (shape_fuel n h a) as [sa|] eqn:A; [|discriminate]. destruct (shape_fuel n h b) as [sb|] eqn:B; [|discriminate].
    injection E as <-. cbn [surface_ids] in I. apply in_app_iff in I. destruct I; eauto.
Qed.
Lemma same_id_same : forall h ls ls' cs cs' s s', NoDup (ids h) -> map (shape_of h) ls = map Some cs -> map (shape_of h) ls' = map Some cs' ->
  In s (flat_map surface_ids cs) -> In s' (flat_map surface_ids cs') -> s_id s' = s_id s -> s' = s.
Proof.
  assert (F : forall h ls cs s, map (shape_of h) ls = map Some cs -> In s (flat_map surface_ids cs) ->
    exists x o p m, get h x = Some o /\ o_kind o = KSurf p m /\ s = Surf (Z.of_nat (o_id o)) p (o_world o) (o_obj o) (o_nscale o) m).
  { intros h ls cs s M I. apply in_flat_map in I. destruct I as (sh & I1 & I2). apply (in_map Some) in I1. rewrite <- M in I1.
    apply in_map_iff in I1. destruct I1 as (l & E & _). eapply surface_at; eauto. }
  intros h ls ls' cs cs' s s' ND M M' I I' E. destruct (F _ _ _ _ M I) as (x & o & p & m & G & K & ->). destruct (F _ _ _ _ M' I') as (x' & o' & p' & m' & G' & K' & ->).
  cbn [s_id] in E. apply Nat2Z.inj in E.
  assert (x' = x); [|subst x'; rewrite G in G'; injection G' as <-; rewrite K in K'; injection K' as <- <-; reflexivity].
  unfold ids in ND. rewrite NoDup_nth_error in ND. apply ND.
  - rewrite map_length. eapply get_lt; eauto.
  - rewrite !nth_error_map. unfold get in *. rewrite G, G'. simpl. congruence.
Qed.

Section Listed.
  Variable asort : list xr -> list nat.
  Hypothesis AS : argsort_ok asort.
  Variables (comps : list shape) (known : list surf).
  Notation surfaces := (flat_map surface_ids comps).
  Hypothesis IDS : forall s, In s surfaces -> (0 <= s_id s)%Z.
  Hypothesis U : forall s s', In s surfaces -> In s' known -> s_id s' = s_id s -> s' = s.
  Notation lut := (table known).

  Lemma listed_stop : forall c, step_ray asort comps lut c = SStop -> stopped c \/ no_hit asort comps (c_ray c).
  Proof.
    intros c H. unfold step_ray in H. destruct (dead c (propagate asort comps c)) eqn:D.
    - unfold dead, logical_or_out in D. apply orb_true_iff in D. destruct D as [D|D].
      + left. apply stopped_absorbed; auto.
      + right. destruct (propagate_first asort AS comps c) as [[_ N]|(t & sid & P & F)]; auto.
        rewrite P in D. cbn [snd] in D. apply Z.eqb_eq in D.
        destruct (first_hit_surface asort AS _ _ _ _ F) as (s & f & S & I & E & _).
        assert (0 <= s_id f)%Z by (apply IDS; apply in_flat_map; eauto). lia.
    - destruct (snd (cell_of asort comps lut c)); [|discriminate].
      destruct (make_row c c0 (snd (propagate asort comps c))); discriminate.
  Qed.
  Lemma listed_go : forall c w n, step_ray asort comps lut c = SGo w n ->
    ~ stopped c /\ exists t sid s, first_hit asort comps (c_ray c) t sid /\ In s surfaces /\ s_id s = sid /\
      met_again (listed known sid) s t c = Some n /\
      w = Row (c_gen c) (c_int c) (c_wl c) (c_idx c) (c_id c) sid
           (trim (origin (c_ray c))) (trim (origin (c_ray n))) (hat (trim (direction (c_ray c)))).
  Proof.
    intros c w n G. destruct (step_go _ _ _ _ _ _ G) as (D & C & M).
    unfold dead, logical_or_out in D. apply orb_false_iff in D. destruct D as [D1 D2]. split.
    { intros S. apply stopped_absorbed in S. congruence. }
    destruct (propagate_first asort AS comps c) as [[P N]|(t & sid & P & F)].
    { rewrite P in D2. discriminate. }
    destruct (first_hit_surface asort AS _ _ _ _ F) as (sh & f & S & I & E & H).
    assert (IF : In f surfaces) by (apply in_flat_map; eauto).
    exists t, sid, f. rewrite P in M, D2. cbn [snd] in M, D2. repeat split; auto.
    - unfold cell_of, start_cell in C. rewrite P in C. cbn [snd] in C. rewrite D2 in C.
      rewrite (cell_pass_listed known f) in C; auto. intros s' I' E'. apply U; auto. congruence.
    - unfold make_row in M. destruct (vnormalize (trim (direction (c_ray c)))) as [v|] eqn:V; [|discriminate].
      inversion M. unfold vnormalize in V. destruct (Req_EM_T _ 0); [discriminate|]. inversion V. reflexivity.
  Qed.
  Lemma ray_listed : forall limit k g c,
    nanfree asort comps lut k g c ->
    (forall j, (j < k)%nat -> (0 < g + j)%nat -> Z.of_nat (g + j) <> limit) ->
    ((0 < g + k)%nat /\ Z.of_nat (g + k) = limit) \/ settled asort comps lut k g c ->
    listed_history asort comps known limit g c (ray_rows asort comps lut k g c).
  Proof.
    intros limit. induction k as [|k IH]; intros g c N B E.
    - simpl. rewrite Nat.add_0_r in E. destruct E as [[E1 E2]|E].
      + apply Listed_limit; auto.
      + apply Listed_stopped. apply listed_stop. simpl in E.
        destruct (step_ray asort comps lut c); auto; contradiction.
    - simpl in *. destruct (step_ray asort comps lut c) as [| |w n] eqn:SR.
      + apply Listed_stopped. apply listed_stop; auto.
      + contradiction.
      + destruct (listed_go _ _ _ SR) as (NS & t & sid & s & F & I & ID & M & ->).
        eapply Listed_hit; eauto.
        * destruct g; auto. right. replace (S g) with (S g + 0)%nat by lia. apply B; lia.
        * apply IH; auto.
          { intros j J P. replace (S g + j)%nat with (g + S j)%nat by lia. apply B; lia. }
          destruct E as [[E1 E2]|E]; auto. left. split; [lia|]. rewrite <- E2. f_equal. lia.
  Qed.
End Listed.

Theorem every_history : forall asort, argsort_ok asort ->
  forall cs cs' h0 h ss ls n lim t0 t known comps gen fuel t',
  run_prog asort cs empty_heap = Ok h0 -> new_tracer h0 ss ls n lim = Some t0 -> run_prog asort cs' h0 = Ok h ->
  t_lut t = t_lut t0 -> map (shape_of h) ls = map Some known -> map (shape_of h) (t_comps t) = map Some comps ->
  trace asort h gen fuel t = TOk t' ->
  forall i c, nth_error (source_rays gen t) i = Some c ->
    listed_history asort comps (flat_map surface_ids known) (t_limit t) 0 (with_id i c) (rows_with_id i (f_rows (get_results t'))).
Proof.
  intros asort AS cs cs' h0 h ss ls n lim t0 t known comps gen fuel t' R0 NT R1 TL MK MC T i c I.
  assert (HH : run_prog asort (cs ++ cs') empty_heap = Ok h) by (rewrite run_prog_app, R0; exact R1).
  destruct (run_catching_ok _ _ _ _ (run_prog_catching _ _ _ _ HH) empty_ids_ok) as ((ND & _) & _).
  destruct (new_tracer_table _ _ _ _ _ _ NT) as ((luts & CL & EL) & C0 & _). rewrite C0 in CL.
  pose proof (collect_lut_keeps _ _ _ _ (run_catching_keeps _ _ _ _ (run_prog_catching _ _ _ _ R1)) CL) as CL'.
  destruct (trace_inv _ _ _ _ _ _ T) as (comps' & lut & k & C & L & SN & F & _ & (NF & B & E) & _).
  assert (comps' = comps) by (apply collect_some in C; apply map_some_inj; congruence). subst comps'.
  assert (KN : collect (map (shape_of h) ls) = Some known) by (rewrite MK; apply collect_map_some).
  rewrite TL, EL in L. destruct (table_resolves _ _ _ _ _ KN CL' L) as (-> & KE & POS).
  unfold get_results. rewrite F. pose proof (renumber_ids _ 0 i c I) as FI. simpl in FI.
  rewrite (batch_of_one asort comps _ k 0 i _ _ FI).
  assert (IN : In (with_id i c) (renumber 0 (source_rays gen t))) by (eapply nth_error_In; apply (renumber_nth _ 0 i c I)).
  apply (ray_listed asort AS comps (flat_map surface_ids known)); [| |exact (NF _ IN)| |].
  - intros s S. apply in_flat_map in S. destruct S as (sh & S1 & S2). apply (in_map Some) in S1. rewrite <- MC in S1. apply in_map_iff in S1.
    destruct S1 as (l & El & _). destruct (surface_at _ _ _ _ _ El S2) as (x & o & p & m & _ & _ & ->). cbn. lia.
  - intros s s' S S'. apply (same_id_same h (t_comps t) ls comps known); auto.
  - intros j J P. simpl in *. apply B. lia.
  - simpl. destruct E as [E|[E _]]; auto.
Qed.

(** ** Surfaces that are not listed at all *)
Lemma unlisted_rows : forall asort comps known limit g c rows, listed_history asort comps known limit g c rows ->
  (forall w, In w rows -> listed known (row_surf w) = O -> row_end w = row_start w) /\
  (forall j w w', nth_error rows j = Some w -> nth_error rows (S j) = Some w' -> listed known (row_surf w) = O ->
     row_tilt w' = row_tilt w /\ row_idx w' = row_idx w).
Proof.
  intros asort comps known limit g c rows H. induction H as [g c G L|g c S|g c t sid s c' rows G NS F I ID M H IH].
  - split; [intros w []|intros [|j] w w' N; discriminate].
  - split; [intros w []|intros [|j] w w' N; discriminate].
  - destruct IH as (IH1 & IH2). split.
    + intros w [<-|J]; auto. cbn [row_surf row_end row_start]. intro Z. rewrite Z in M. cbn in M. congruence.
    + intros [|j] w w' N N'; [|apply (IH2 j); auto]. cbn [nth_error] in N, N'. injection N as <-. cbn [row_surf row_tilt row_idx]. intro Z. rewrite Z in M. cbn in M.
      injection M as <-. inversion H as [? ? G' L'|? ? S'|g' c1 t' sid' s' c2 rows' G' NS' F' I' ID' M' H' E1 E2 E3]; subst; try discriminate.
      cbn in N'. injection N' as <-. cbn. split; reflexivity.
Qed.

Theorem unlisted_surfaces : forall asort, argsort_ok asort ->
  forall cs cs' h0 h ss ls n lim t0 t known comps gen fuel t',
  run_prog asort cs empty_heap = Ok h0 -> new_tracer h0 ss ls n lim = Some t0 -> run_prog asort cs' h0 = Ok h ->
  t_lut t = t_lut t0 -> map (shape_of h) ls = map Some known -> map (shape_of h) (t_comps t) = map Some comps ->
  trace asort h gen fuel t = TOk t' ->
  forall i c, nth_error (source_rays gen t) i = Some c ->
  (forall w, In w (rows_with_id i (f_rows (get_results t'))) -> listed (flat_map surface_ids known) (row_surf w) = O -> row_end w = row_start w) /\
  (forall j w w', nth_error (rows_with_id i (f_rows (get_results t'))) j = Some w -> nth_error (rows_with_id i (f_rows (get_results t'))) (S j) = Some w' ->
     listed (flat_map surface_ids known) (row_surf w) = O -> row_tilt w' = row_tilt w /\ row_idx w' = row_idx w).
Proof.
  intros asort AS cs cs' h0 h ss ls n lim t0 t known comps gen fuel t' R0 NT R1 TL MK MC T i c I.
  eapply unlisted_rows. eapply every_history; eauto.
Qed.
