(** * TraceFacts5: generations, carried fields, termination, repeatability, source ids *)
From Coq Require Import Reals List Bool ZArith Lia Lra Psatz.
Import ListNotations.
From Verif Require Import XR Arr Lin LinFacts Ops Prim Csg Surf World SpecWorld SpecOptics Tracer SpecTrace
  XRFacts TraceFacts TraceFacts2 TraceFacts4.
Open Scope R_scope.

(** ** Generations and carried fields *)
Section Rows.
  Variable asort : list xr -> list nat.
  Variable comps : list shape.
  Variable lut : list (Z * surf).

  Lemma ray_rows_gens : forall k g c, c_gen c = g ->
    exists m, (m <= k)%nat /\ map row_gen (ray_rows asort comps lut k g c) = seq g m.
  Proof.
    induction k as [|k IH]; intros g c G; simpl.
    - exists O. auto.
    - destruct (step_ray asort comps lut c) as [| |w n] eqn:S; try (exists O; simpl; split; auto; lia).
      destruct (IH (Datatypes.S g) (onward g n) eq_refl) as (m & M & E).
      exists (Datatypes.S m). split; [lia|]. simpl. rewrite E. f_equal.
      destruct (step_go _ _ _ _ _ _ S) as (_ & _ & R). apply make_row_fields in R. destruct R as (R & _). congruence.
  Qed.
  Lemma ray_rows_carry : forall k g c w, In w (ray_rows asort comps lut k g c) ->
    row_id w = c_id c /\ row_wl w = c_wl c /\ row_int w = c_int c.
  Proof.
    induction k as [|k IH]; intros g c w H; simpl in H; [contradiction|].
    destruct (step_ray asort comps lut c) as [| |w0 n] eqn:S; try contradiction.
    destruct (step_go _ _ _ _ _ _ S) as (_ & _ & R). apply make_row_fields in R.
    destruct (step_carries _ _ _ _ _ _ S) as [(A & B & C & _) _].
    destruct H as [<-|H]; [tauto|]. apply IH in H. cbn in H. destruct H as (H1 & H2 & H3). repeat split; congruence.
  Qed.
  Lemma batch_length : forall k g cs, (length (batch asort comps lut k g cs) <= k * length cs)%nat.
  Proof.
    assert (F1 : forall cs, (length (flat_map (step_rows asort comps lut) cs) <= length cs)%nat).
    { induction cs as [|c cs IH]; simpl; auto. rewrite app_length. unfold step_rows at 1.
      destruct (step_ray asort comps lut c); simpl; lia. }
    assert (F2 : forall g cs, (length (flat_map (step_next asort comps lut g) cs) <= length cs)%nat).
    { induction cs as [|c cs IH]; simpl; auto. rewrite app_length. unfold step_next at 1.
      destruct (step_ray asort comps lut c); simpl; lia. }
    induction k as [|k IH]; intros g cs; simpl; auto. rewrite app_length.
    specialize (IH (S g) (map (forward ray_offset_value) (flat_map (step_next asort comps lut g) cs))).
    rewrite map_length in IH. specialize (F1 cs). specialize (F2 g cs). nia.
  Qed.
End Rows.

(** every row belongs to a source ray *)
Lemma frame_rows : forall asort h gen fuel t t', trace asort h gen fuel t = TOk t' ->
  exists comps lut k, t_gen t' = k /\
    (forall i c, nth_error (source_rays gen t) i = Some c ->
       rows_with_id i (f_rows (get_results t')) = ray_rows asort comps lut k 0 (with_id i c)) /\
    (forall w, In w (f_rows (get_results t')) ->
       exists c, nth_error (source_rays gen t) (row_id w) = Some c /\
         In w (ray_rows asort comps lut k 0 (with_id (row_id w) c))) /\
    (length (f_rows (get_results t')) <= k * length (source_rays gen t))%nat.
Proof.
  intros asort h gen fuel t t' T.
  destruct (trace_inv _ _ _ _ _ _ T) as (comps & lut & k & C & L & SN & F & _ & RF & G & _).
  exists comps, lut, k. split; auto. unfold get_results. rewrite F.
  assert (A : forall i c, nth_error (source_rays gen t) i = Some c ->
       rows_with_id i (batch asort comps lut k 0 (renumber 0 (source_rays gen t))) =
       ray_rows asort comps lut k 0 (with_id i c)).
  { intros i c I. apply batch_of_one. apply (renumber_ids _ 0 i c I). }
  split; [auto|]. split.
  - intros w W. destruct (batch_ids _ _ _ _ _ _ _ W) as (c & I & E).
    destruct (renumber_in _ _ _ I) as (i & c0 & N & ->). cbn in E. rewrite E. exists c0. split; auto.
    rewrite <- A; auto. apply filter_In. split; auto. rewrite E. apply Nat.eqb_refl.
  - rewrite <- (renumber_length (source_rays gen t) 0). apply batch_length.
Qed.

Lemma gen_bound : forall asort h gen fuel t t', trace asort h gen fuel t = TOk t' -> (1 <= t_limit t)%Z ->
  (Z.of_nat (t_gen t') <= t_limit t)%Z.
Proof.
  intros asort h gen fuel t t' T P.
  destruct (trace_inv _ _ _ _ _ _ T) as (comps & lut & k & _ & _ & _ & _ & _ & (_ & B & E) & G & _).
  rewrite G. destruct (Z_le_gt_dec (Z.of_nat k) (t_limit t)) as [|H]; auto. exfalso.
  apply (B (Z.to_nat (t_limit t))); [lia|]. simpl. rewrite Z2Nat.id; lia.
Qed.

Lemma source_rays_length : forall gen t,
  (forall s, In s (t_sources t) -> length (gen s (t_n t)) = t_n t) ->
  length (source_rays gen t) = (t_n t * length (t_sources t))%nat.
Proof.
  intros gen t. unfold source_rays. generalize (t_n t). intros n. induction (t_sources t) as [|s ss IH]; intros H; simpl.
  - lia.
  - rewrite app_length, H, IH; [lia|intros; apply H; right; auto|left; auto].
Qed.

Lemma in_rows_with_id : forall i rows w, In w (rows_with_id i rows) <-> In w rows /\ row_id w = i.
Proof. intros. unfold rows_with_id. rewrite filter_In, Nat.eqb_eq. tauto. Qed.

Lemma rows_with_id_none : forall i rows, (forall w, In w rows -> row_id w <> i) -> rows_with_id i rows = [].
Proof.
  intros i rows H. unfold rows_with_id. induction rows as [|w rows IH]; simpl; auto.
  destruct (Nat.eqb_spec (row_id w) i) as [E|E]; [elim (H w (or_introl eq_refl)); auto|].
  apply IH. intros; apply H; right; auto.
Qed.

Theorem frame_well_formed : forall asort h gen fuel t t', trace asort h gen fuel t = TOk t' ->
  (1 <= t_limit t)%Z ->
  (forall s, In s (t_sources t) -> length (gen s (t_n t)) = t_n t) ->
  (forall s c, In s (t_sources t) -> In c (gen s (t_n t)) -> c_gen c = O) ->
  let rows := f_rows (get_results t') in
  let rays := (t_n t * length (t_sources t))%nat in
  (forall i, exists k, (Z.of_nat k <= t_limit t)%Z /\ map row_gen (rows_with_id i rows) = seq 0 k) /\
  (forall w, In w rows -> (row_id w < rays)%nat /\ (Z.of_nat (row_gen w) < t_limit t)%Z) /\
  (Z.of_nat (length rows) <= t_limit t * Z.of_nat rays)%Z.
Proof.
  intros asort h gen fuel t t' T P LN G0 rows rays.
  pose proof (gen_bound _ _ _ _ _ _ T P) as GB. pose proof (source_rays_length gen t LN) as SL.
  destruct (frame_rows _ _ _ _ _ _ T) as (comps & lut & k & K & A & B & C). fold rows in A, B, C.
  assert (GR : forall i, exists m, (Z.of_nat m <= t_limit t)%Z /\ map row_gen (rows_with_id i rows) = seq 0 m).
  { intros i. destruct (nth_error (source_rays gen t) i) as [c|] eqn:N.
    - rewrite (A _ _ N).
      assert (G : c_gen (with_id i c) = O).
      { cbn. apply nth_error_In in N. unfold source_rays in N. apply in_concat in N.
        destruct N as (l & L & I). apply in_map_iff in L. destruct L as (s & <- & J). eauto. }
      destruct (ray_rows_gens asort comps lut k 0 _ G) as (m & M & E). exists m. split; auto. lia.
    - exists O. split; [lia|]. rewrite rows_with_id_none; auto. intros w W E. subst i.
      destruct (B w W) as (c & N' & _). congruence. }
  split; auto. split.
  - intros w W. split.
    + destruct (B w W) as (c & N & _). unfold rays. rewrite <- SL. apply nth_error_Some. congruence.
    + destruct (GR (row_id w)) as (m & M & E).
      assert (I : In (row_gen w) (map row_gen (rows_with_id (row_id w) rows))).
      { apply in_map. apply in_rows_with_id. auto. }
      rewrite E in I. apply in_seq in I. lia.
  - unfold rays. rewrite <- SL. rewrite <- K in C. nia.
Qed.

Theorem fields_carried : forall asort h gen fuel t t', trace asort h gen fuel t = TOk t' ->
  forall w, In w (f_rows (get_results t')) ->
  exists c, nth_error (source_rays gen t) (row_id w) = Some c /\ row_wl w = c_wl c /\ row_int w = c_int c.
Proof.
  intros asort h gen fuel t t' T w W. destruct (frame_rows _ _ _ _ _ _ T) as (comps & lut & k & K & A & B & C).
  destruct (B w W) as (c & N & I). exists c. split; auto. apply ray_rows_carry in I. cbn in I. tauto.
Qed.

(** ** Termination *)
Lemma run_idle : forall asort h gen fuel t, t_state t = IDLE -> run_states asort h gen fuel t = TOk t.
Proof. intros asort h gen [|fuel] t H; simpl; rewrite H; auto. Qed.

Lemma run_S : forall asort h gen fuel t, run_states asort h gen (S fuel) t =
  match t_state t with
  | IDLE => TOk t
  | INITIALIZE => tbind (st_initialize gen t) (run_states asort h gen fuel)
  | PROPAGATE => tbind (st_propagate asort h t) (run_states asort h gen fuel)
  | INTERACT => tbind (st_interact h t) (run_states asort h gen fuel)
  | FINISH => tbind (st_finish t) (run_states asort h gen fuel)
  end.
Proof. reflexivity. Qed.

Lemma run_terminates : forall asort h gen m t fuel, t_state t = PROPAGATE ->
  (Z.of_nat (t_gen t + m) = t_limit t)%Z -> (0 < m)%nat -> (2 * m + 1 <= fuel)%nat ->
  run_states asort h gen fuel t <> TFuel.
Proof.
  intros asort h gen. induction m as [|m IH]; intros t fuel P G M F; [lia|].
  destruct fuel as [|[|[|fuel]]]; try lia. rewrite run_S, P. unfold st_propagate.
  destruct (collect (map (shape_of h) (t_comps t))) as [comps|]; cbn [tbind]; [|discriminate].
  rewrite run_S. cbn [t_state set_state set_hits]. unfold st_interact. cbn [t_lut set_state set_hits].
  destruct (collect (map (entry_of h) (t_lut t))) as [lut|]; cbn [tbind]; [|discriminate].
  cbn [t_limit t_gen t_rays t_hits t_frame set_hits set_state].
  pose proof (interact_cases asort comps lut (t_limit t) (t_gen t) (t_rays t)) as I.
  destruct (interact lut (t_limit t) (t_gen t) (t_rays t) (map (propagate asort comps) (t_rays t)))
    as [|rows rays g fin| |]; cbn [tbind]; try discriminate.
  - rewrite run_S. cbn [t_state set_state]. unfold st_finish. cbn [tbind].
    rewrite run_idle; [discriminate|reflexivity].
  - destruct I as (_ & _ & _ & -> & HF & _). destruct fin; cbn [tbind].
    + rewrite run_S. cbn [t_state set_state]. unfold st_finish. cbn [tbind].
      rewrite run_idle; [discriminate|reflexivity].
    + symmetry in HF. apply Z.eqb_neq in HF. apply IH.
      * reflexivity.
      * cbn. rewrite <- G. f_equal. lia.
      * destruct m; [|lia]. elim HF. rewrite <- G. f_equal. lia.
      * lia.
Qed.

Theorem trace_terminates : forall asort h gen t fuel, (1 <= t_limit t)%Z ->
  (2 * Z.to_nat (t_limit t) + 2 <= fuel)%nat -> trace asort h gen fuel t <> TFuel.
Proof.
  intros asort h gen t fuel P F. unfold trace. destruct fuel as [|fuel]; [lia|].
  cbn [run_states t_state set_state]. unfold st_initialize.
  destruct (t_sources (reset (set_state INITIALIZE t))); cbn [tbind]; [discriminate|].
  apply (run_terminates _ _ _ (Z.to_nat (t_limit t))); [reflexivity| |lia|lia].
  cbn. rewrite Z2Nat.id; lia.
Qed.

(** more fuel changes nothing *)
Lemma run_more : forall asort h gen fuel t m r, run_states asort h gen fuel t = r -> r <> TFuel ->
  run_states asort h gen (fuel + m) t = r.
Proof.
  intros asort h gen. induction fuel as [|fuel IH]; intros t m r R N.
  - cbn [run_states] in R. destruct (t_state t) eqn:S; try congruence. rewrite run_idle; auto.
  - cbn [run_states plus] in *. destruct (t_state t) eqn:S; auto;
      match goal with |- tbind ?x _ = _ => destruct x end; cbn [tbind] in *; auto.
Qed.
Lemma trace_more : forall asort h gen fuel t m r, trace asort h gen fuel t = r -> r <> TFuel ->
  trace asort h gen (fuel + m) t = r.
Proof. intros. unfold trace in *. apply run_more; auto. Qed.

(** ** Repeatability *)
Definition same_setup (t u : tracer) : Prop :=
  t_sources t = t_sources u /\ t_comps t = t_comps u /\ t_n t = t_n u /\ t_limit t = t_limit u /\ t_lut t = t_lut u.

(** what trace reads of the tracer *)
Definition setup_only (t : tracer) : tracer :=
  Tracer empty_frame INITIALIZE 0 false (t_sources t) (t_comps t) (t_n t) (t_limit t) [] [] (t_lut t).

(** two outcomes that only differ in the leftovers of the last ray set *)
Definition same_outcome (a b : tres) : Prop :=
  match a, b with
  | TOk t, TOk u => get_results t = get_results u /\ same_setup t u
  | TRaise e t, TRaise e' u => e = e' /\ get_results t = get_results u /\ same_setup t u
  | TNan, TNan => True
  | TFuel, TFuel => True
  | _, _ => False
  end.

Lemma same_setup_refl : forall t, same_setup t t.
Proof. unfold same_setup; auto. Qed.
Lemma same_outcome_refl : forall a, same_outcome a a.
Proof. intros []; simpl; auto using same_setup_refl. Qed.

(** the parts of the state a state function may read *)
Definition agree (t u : tracer) : Prop :=
  same_setup t u /\ t_frame t = t_frame u /\ t_gen t = t_gen u /\ t_rays t = t_rays u /\ t_state t = t_state u /\
  (t_state t = INTERACT -> t_hits t = t_hits u).

Lemma agree_run : forall asort h gen fuel t u, agree t u -> t_state t <> INITIALIZE ->
  same_outcome (run_states asort h gen fuel t) (run_states asort h gen fuel u).
Proof.
  intros asort h gen. induction fuel as [|fuel IH]; intros t u (SS & FR & GE & RA & ST & HI) NI.
  - cbn [run_states]. rewrite <- ST. destruct (t_state t); try exact I. simpl. unfold get_results. auto.
  - cbn [run_states]. rewrite <- ST. destruct SS as (SO & CO & TN & LI & LU).
    destruct (t_state t) eqn:S; try congruence.
    + simpl. unfold get_results. repeat split; auto.
    + unfold st_propagate. rewrite <- CO. destruct (collect (map (shape_of h) (t_comps t))); cbn [tbind].
      * apply IH; [|discriminate]. repeat split; auto. cbn. intros _. congruence.
      * simpl. unfold get_results. repeat split; auto.
    + unfold st_interact. rewrite <- LU, <- LI, <- GE, <- RA, <- (HI eq_refl).
      destruct (collect (map (entry_of h) (t_lut t))); cbn [tbind]; [|simpl; unfold get_results; repeat split; auto].
      destruct (interact l (t_limit t) (t_gen t) (t_rays t) (t_hits t)); cbn [tbind]; try exact I.
      * apply IH; [|discriminate]. repeat split; auto; discriminate.
      * apply IH; [|destruct finished; discriminate]. repeat split; cbn; auto; try congruence;
        destruct finished; discriminate.
      * simpl. unfold get_results. repeat split; auto.
    + cbn [st_finish]. unfold st_finish. cbn [tbind]. apply IH; [|discriminate]. repeat split; cbn; auto; discriminate.
Qed.

Theorem trace_same_setup : forall asort h gen fuel t u, same_setup t u ->
  same_outcome (trace asort h gen fuel t) (trace asort h gen fuel u).
Proof.
  intros asort h gen fuel t u (SO & CO & TN & LI & LU). unfold trace. destruct fuel as [|fuel]; [exact I|].
  cbn [run_states t_state set_state]. unfold st_initialize. cbn [t_sources reset set_state set_gen set_frame set_complete].
  rewrite <- SO. destruct (t_sources t) as [|s ss] eqn:E; cbn [tbind].
  - simpl. repeat split; cbn; congruence.
  - apply agree_run; [|discriminate]. repeat split; cbn; auto; try congruence. rewrite TN. reflexivity.
Qed.

Lemma run_setup : forall asort h gen fuel t t1 e,
  run_states asort h gen fuel t = TOk t1 \/ run_states asort h gen fuel t = TRaise e t1 -> same_setup t t1.
Proof.
  intros asort h gen. induction fuel as [|fuel IH]; intros t t1 e R.
  - cbn [run_states] in R. destruct (t_state t); destruct R as [R|R]; inversion R; subst; apply same_setup_refl.
  - cbn [run_states] in R. destruct (t_state t) eqn:S.
    + destruct R as [R|R]; inversion R; subst; apply same_setup_refl.
    + unfold st_initialize in R. destruct (t_sources (reset t)) eqn:SO; cbn [tbind] in R.
      * destruct R as [R|R]; inversion R; subst. repeat split; auto.
      * apply IH in R. exact R.
    + unfold st_propagate in R. destruct (collect (map (shape_of h) (t_comps t))); cbn [tbind] in R.
      * apply IH in R. exact R.
      * destruct R as [R|R]; inversion R; subst. apply same_setup_refl.
    + unfold st_interact in R. destruct (collect (map (entry_of h) (t_lut t))); cbn [tbind] in R.
      2:{ destruct R as [R|R]; inversion R; subst. apply same_setup_refl. }
      destruct (interact l (t_limit t) (t_gen t) (t_rays t) (t_hits t)); cbn [tbind] in R.
      * apply IH in R. exact R.
      * apply IH in R. exact R.
      * destruct R as [R|R]; inversion R; subst. apply same_setup_refl.
      * destruct R as [R|R]; inversion R.
    + unfold st_finish in R. cbn [tbind] in R. apply IH in R. exact R.
Qed.
Lemma same_setup_trans : forall a b c, same_setup a b -> same_setup b c -> same_setup a c.
Proof. unfold same_setup; intros; intuition congruence. Qed.
Lemma calls_setup : forall asort h gen cs t t2, after_calls asort h gen cs t t2 -> same_setup t t2.
Proof.
  intros asort h gen cs t t2 H. induction H.
  - apply same_setup_refl.
  - eapply same_setup_trans; [|eassumption]. unfold trace in H. apply run_setup in H. exact H.
  - exact IHafter_calls.
  - exact IHafter_calls.
Qed.

(** ** Source ids *)
Lemma trunc_div : forall s n j, (j < n)%nat -> trunc (INR (s * n + j) / INR n) = Z.of_nat s.
Proof.
  intros s n j J. assert (N : 0 < INR n) by (apply lt_0_INR; lia).
  assert (E : INR (s * n + j) / INR n = INR s + INR j / INR n).
  { rewrite plus_INR, mult_INR. field. lra. }
  rewrite E. assert (B : 0 <= INR j / INR n < 1).
  { split.
    - apply Rmult_le_pos; [apply pos_INR|]. apply Rlt_le, Rinv_0_lt_compat; auto.
    - apply (Rmult_lt_reg_r (INR n)); auto. unfold Rdiv. rewrite Rmult_assoc, Rinv_l by lra.
      rewrite Rmult_1_r, Rmult_1_l. apply lt_INR; auto. }
  assert (P : 0 <= INR s) by apply pos_INR.
  unfold trunc. destruct (Rle_dec 0 (INR s + INR j / INR n)) as [|X]; [|lra].
  rewrite INR_IZR_INZ. set (x := INR j / INR n) in *. clearbody x.
  destruct (base_Int_part (IZR (Z.of_nat s) + x)) as [B1 B2].
  apply Z.le_antisymm.
  - apply le_IZR. apply Rnot_lt_le. intros H.
    assert (K : IZR (Z.of_nat s + 1) <= IZR (Int_part (IZR (Z.of_nat s) + x))).
    { apply IZR_le. apply lt_IZR in H. lia. }
    rewrite plus_IZR in K. lra.
  - apply le_IZR. apply Rnot_lt_le. intros H.
    assert (K : IZR (Int_part (IZR (Z.of_nat s) + x) + 1) <= IZR (Z.of_nat s)).
    { apply IZR_le. apply lt_IZR in H. lia. }
    rewrite plus_IZR in K. lra.
Qed.

(** the ray with id s*n+j is ray j of source s *)
Lemma source_ray_nth : forall gen t i c,
  (forall s, In s (t_sources t) -> length (gen s (t_n t)) = t_n t) ->
  nth_error (source_rays gen t) i = Some c ->
  exists k j s, nth_error (t_sources t) k = Some s /\ i = (k * t_n t + j)%nat /\ (j < t_n t)%nat /\
    nth_error (gen s (t_n t)) j = Some c.
Proof.
  intros gen t. unfold source_rays. generalize (t_n t). intros n.
  induction (t_sources t) as [|s ss IH]; intros i c H N; simpl in N; [destruct i; discriminate|].
  assert (L : length (gen s n) = n) by (apply H; left; auto).
  destruct (Nat.lt_ge_cases i n) as [I|I].
  - rewrite nth_error_app1 in N by lia. exists O, i, s. simpl. auto.
  - rewrite nth_error_app2 in N by lia.
    destruct (IH (i - length (gen s n))%nat c) as (k & j & s' & K & E & J & Q); auto.
    { intros; apply H; right; auto. }
    exists (S k), j, s'. simpl. repeat split; auto. lia.
Qed.

Theorem source_ids_right : forall asort h gen fuel t t', trace asort h gen fuel t = TOk t' ->
  (forall s, In s (t_sources t) -> length (gen s (t_n t)) = t_n t) ->
  exists ids, f_source_ids (get_results (calculate_source_ids t')) = Some ids /\
    f_rows (get_results (calculate_source_ids t')) = f_rows (get_results t') /\
    length ids = length (f_rows (get_results t')) /\
    forall m w, nth_error (f_rows (get_results t')) m = Some w ->
      exists k s j c, nth_error ids m = Some (Z.of_nat k) /\ nth_error (t_sources t) k = Some s /\
        nth_error (gen s (t_n t)) j = Some c /\ row_id w = (k * t_n t + j)%nat /\ (j < t_n t)%nat.
Proof.
  intros asort h gen fuel t t' T LN.
  destruct (trace_inv _ _ _ _ _ _ T) as (comps & lut & k & _ & _ & _ & _ & _ & _ & _ & _ & _ & _ & _ & TN & _).
  eexists. split; [reflexivity|]. split; [reflexivity|]. split; [unfold get_results; cbn; apply map_length|].
  intros m w W. destruct (frame_rows _ _ _ _ _ _ T) as (comps' & lut' & k' & _ & _ & B & _).
  destruct (B w (nth_error_In _ _ W)) as (c & N & _).
  destruct (source_ray_nth _ _ _ _ LN N) as (q & j & s & Q & E & J & G).
  exists q, s, j, c. repeat split; auto. rewrite nth_error_map. unfold get_results in W. rewrite W. simpl.
  rewrite TN, E, trunc_div; auto.
Qed.
