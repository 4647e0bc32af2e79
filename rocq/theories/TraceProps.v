(** * TraceProps: the statements about the tracer, assembled *)
From Coq Require Import Reals List Bool ZArith Lia Lra Psatz Permutation Sorted.
Import ListNotations.
From Verif Require Import XR XRFacts Arr Ops Lin LinFacts Prim Csg Surf SpecGeom SpecTree World SpecWorld SpecOptics OpsFacts CsgProps
  Tracer SpecTrace TraceFacts TraceFacts2 TraceFacts3 TraceFacts4 TraceFacts5 TraceFacts6 TraceFacts7 TraceFacts8 TraceFacts9
  WorldFacts WorldExamples TraceExamples.
Open Scope R_scope.

(** ** Every row, in every scene *)
Lemma ray_rows_hit : forall asort, argsort_ok asort -> forall comps lut k g c w, In w (ray_rows asort comps lut k g c) ->
  unit (row_tilt w) /\
  exists r t, first_hit asort comps r t (row_surf w) /\ row_start w = trim (origin r) /\ row_tilt w = hat (trim (direction r)).
Proof.
  intros asort AS comps lut. induction k as [|k IH]; intros g c w H; simpl in H; [contradiction|].
  destruct (step_ray asort comps lut c) as [| |w0 n] eqn:SR; try contradiction. destruct H as [<-|H]; [|eauto].
  destruct (step_go _ _ _ _ _ _ SR) as (D & _ & M). unfold dead, logical_or_out in D. apply orb_false_iff in D. destruct D as (_ & D).
  apply make_row_fields in M. destruct M as (_ & _ & _ & _ & _ & M1 & M2 & _ & M3).
  assert (NZ : vdot (trim (direction (c_ray c))) (trim (direction (c_ray c))) <> 0).
  { intros Z. unfold vnormalize in M3. destruct (Req_EM_T _ 0); [discriminate|contradiction]. }
  destruct (vnormalize_hat _ NZ) as (E & U). rewrite E in M3. injection M3 as M3. rewrite M3 in U. split; auto.
  destruct (propagate_first asort AS comps c) as [(P & _)|(t & sid & P & F)]; rewrite P in *; cbn [snd] in *; [discriminate|].
  exists (c_ray c), t. rewrite M1. auto.
Qed.
Theorem row_names_first : forall asort, argsort_ok asort -> forall h gen fuel t t' comps,
  trace asort h gen fuel t = TOk t' -> map (shape_of h) (t_comps t) = map Some comps ->
  forall w, In w (f_rows (get_results t')) ->
  exists r x, first_hit asort comps r x (row_surf w) /\ row_start w = trim (origin r) /\ row_tilt w = hat (trim (direction r)).
Proof.
  intros asort AS h gen fuel t t' comps T SH w W. destruct (fields_carried _ _ _ _ _ _ T w W) as (c & N & _).
  destruct (rows_frame _ _ _ _ _ _ _ _ T N) as (comps' & lut & k & C & L & E & _).
  rewrite SH, collect_map_some in C. inversion C; subst comps'.
  assert (I : In w (rows_with_id (row_id w) (f_rows (get_results t')))) by (apply in_rows_with_id; auto).
  rewrite E, <- ray_rows_id in I. apply (ray_rows_hit asort AS) in I. tauto.
Qed.
Theorem tilts_unit : forall asort, argsort_ok asort -> forall h gen fuel t t', trace asort h gen fuel t = TOk t' ->
  forall w, In w (f_rows (get_results t')) -> unit (row_tilt w).
Proof.
  intros asort AS h gen fuel t t' T w W. destruct (fields_carried _ _ _ _ _ _ T w W) as (c & N & _).
  destruct (rows_frame _ _ _ _ _ _ _ _ T N) as (comps' & lut & k & C & L & E & _).
  assert (I : In w (rows_with_id (row_id w) (f_rows (get_results t')))) by (apply in_rows_with_id; auto).
  rewrite E, <- ray_rows_id in I. apply (ray_rows_hit asort AS) in I. tauto.
Qed.

(** ** The intensity has no influence *)
Definition with_int (x : R) (c : col) : col := Col (c_ray c) (c_gen c) x (c_wl c) (c_idx c) (c_id c).
Lemma material_int : forall s i c, material_trace s (with_int i c) = option_map (with_int i) (material_trace s c).
Proof.
  intros s i c. unfold material_trace. destruct (s_mat s); cbn [c_ray with_int c_wl c_idx]; auto.
  - destruct (world_normal s (origin (c_ray c))); auto.
  - destruct (world_normal s (origin (c_ray c))); auto. destruct (index_at (c_wl c)); auto.
    destruct (refract _ _ _ _ _) as [[d m]|]; auto.
Qed.
Definition cell_int (i : R) (x : cell) : cell := (fst x, option_map (with_int i) (snd x)).
Lemma apply_int : forall s i x, apply_surface s (cell_int i x) = cell_int i (apply_surface s x).
Proof.
  intros s i [h [c|]]; unfold apply_surface, cell_int; cbn [fst snd option_map]; auto.
  destruct (fst h); auto. change (forward r (with_int i c)) with (with_int i (forward r c)). rewrite material_int. auto.
Qed.
Lemma cell_pass_int : forall lut i x, cell_pass lut (cell_int i x) = cell_int i (cell_pass lut x).
Proof.
  induction lut as [|e lut IH]; intros i x; [reflexivity|].
  change (cell_pass (e :: lut) (cell_int i x)) with
    (cell_pass lut (if Z.eqb (snd (hit_of x)) (fst e) then apply_surface (snd e) (cell_int i x) else cell_int i x)).
  change (cell_pass (e :: lut) x) with
    (cell_pass lut (if Z.eqb (snd (hit_of x)) (fst e) then apply_surface (snd e) x else x)).
  destruct (Z.eqb (snd (hit_of x)) (fst e)); [rewrite apply_int|]; auto.
Qed.
Lemma step_int : forall asort comps lut i c, step_ray asort comps lut (with_int i c) =
  match step_ray asort comps lut c with SGo w n => SGo (row_with_int i w) (with_int i n) | x => x end.
Proof.
  intros asort comps lut i c. unfold step_ray.
  change (dead (with_int i c) (propagate asort comps (with_int i c))) with (dead c (propagate asort comps c)).
  destruct (dead c (propagate asort comps c)); auto. unfold cell_of.
  change (propagate asort comps (with_int i c)) with (propagate asort comps c).
  assert (E : start_cell (propagate asort comps c) (with_int i c) = cell_int i (start_cell (propagate asort comps c) c)).
  { unfold start_cell, cell_int; cbn [fst snd option_map]. destruct (Z.eqb _ _); auto. }
  rewrite E, cell_pass_int. destruct (cell_pass lut _) as [h [n|]]; cbn [cell_int snd option_map]; auto.
  unfold make_row. cbn [c_ray with_int]. destruct (vnormalize _); auto.
Qed.
Lemma ray_rows_int : forall asort comps lut i k g c,
  ray_rows asort comps lut k g (with_int i c) = map (row_with_int i) (ray_rows asort comps lut k g c).
Proof.
  intros asort comps lut i. induction k as [|k IH]; intros g c; simpl; auto. rewrite step_int.
  destruct (step_ray asort comps lut c) as [| |w n]; auto. simpl. f_equal.
  change (onward g (with_int i n)) with (with_int i (onward g n)). apply IH.
Qed.
Lemma settled_int : forall asort comps lut i k g c,
  settled asort comps lut k g (with_int i c) <-> settled asort comps lut k g c.
Proof.
  intros asort comps lut i. induction k as [|k IH]; intros g c; simpl; rewrite step_int;
    destruct (step_ray asort comps lut c) as [| |w n]; try tauto.
  change (onward g (with_int i n)) with (with_int i (onward g n)). apply IH.
Qed.
Lemma rows_agree : forall asort comps lut k k' limit c,
  (forall j, (0 < j < k)%nat -> Z.of_nat j <> limit) -> (forall j, (0 < j < k')%nat -> Z.of_nat j <> limit) ->
  ((0 < k)%nat /\ Z.of_nat k = limit) \/ settled asort comps lut k 0 c ->
  ((0 < k')%nat /\ Z.of_nat k' = limit) \/ settled asort comps lut k' 0 c ->
  ray_rows asort comps lut k' 0 c = ray_rows asort comps lut k 0 c.
Proof.
  intros asort comps lut k k' limit c B B' E E'. destruct (Nat.le_ge_cases k k') as [K|K].
  - destruct E as [(P & E)|E].
    + assert (k' = k); [|subst; auto]. destruct (Nat.eq_dec k' k); auto. exfalso. apply (B' k); auto. lia.
    + replace k' with (k + (k' - k))%nat by lia. apply settled_rows; auto.
  - destruct E' as [(P & E')|E'].
    + assert (k' = k); [|subst; auto]. destruct (Nat.eq_dec k' k); auto. exfalso. apply (B k'); auto. lia.
    + symmetry. replace k with (k' + (k - k'))%nat by lia. apply settled_rows; auto.
Qed.
Theorem intensity_ignored : forall asort h gen gen' fuel fuel' t u t' u',
  trace asort h gen fuel t = TOk t' -> trace asort h gen' fuel' u = TOk u' ->
  t_comps t = t_comps u -> t_lut t = t_lut u -> t_limit t = t_limit u ->
  forall i c x, nth_error (source_rays gen t) i = Some c ->
  nth_error (source_rays gen' u) i = Some (Col (c_ray c) (c_gen c) x (c_wl c) (c_idx c) (c_id c)) ->
  rows_with_id i (f_rows (get_results u')) = map (row_with_int x) (rows_with_id i (f_rows (get_results t'))).
Proof.
  intros asort h gen gen' fuel fuel' t u t' u' T U EC EL EM i c x N M.
  destruct (rows_frame _ _ _ _ _ _ _ _ T N) as (comps & lut & k & C & L & -> & B & E).
  destruct (rows_frame _ _ _ _ _ _ _ _ U M) as (comps' & lut' & k' & C' & L' & -> & B' & E').
  rewrite <- EC, C in C'. inversion C'; subst comps'. rewrite <- EL, L in L'. inversion L'; subst lut'.
  rewrite <- EM in B', E'. change (Col (c_ray c) (c_gen c) x (c_wl c) (c_idx c) (c_id c)) with (with_int x c) in *.
  rewrite settled_int in E'. rewrite ray_rows_int, (rows_agree asort comps lut k k' (t_limit t) c B B' E E').
  rewrite !map_map. apply map_ext. intros []; reflexivity.
Qed.

(** ** A table that knows more surfaces than there are *)
Section BiggerTable.
  Variable asort : list xr -> list nat.
  Hypothesis AS : argsort_ok asort.
  Variables (comps : list shape) (lut lut' : list (Z * surf)).
  Hypothesis HAVE : forall s, In s (flat_map surface_ids comps) -> In (s_id s, s) lut /\ In (s_id s, s) lut'.
  Hypothesis ND : NoDup (map fst lut).
  Hypothesis ND' : NoDup (map fst lut').
  Lemma step_table : forall c, step_ray asort comps lut' c = step_ray asort comps lut c.
  Proof.
    intros c. unfold step_ray. destruct (dead c (propagate asort comps c)) eqn:D; auto.
    assert (E : cell_of asort comps lut' c = cell_of asort comps lut c); [|rewrite E; auto].
    unfold cell_of. destruct (propagate_first asort AS comps c) as [(P & _)|(t & sid & P & F)]; rewrite P in *.
    - unfold dead, logical_or_out in D. cbn [snd Z.eqb] in D. rewrite orb_true_r in D. discriminate.
    - destruct (first_hit_surface asort AS _ _ _ _ F) as (sh & f & IS & IF & E & _).
      destruct (HAVE f) as (H1 & H2); [apply in_flat_map; eauto|]. rewrite E in H1, H2.
      rewrite (cell_pass_once lut' _ f), (cell_pass_once lut _ f); auto.
  Qed.
  Lemma rows_table : forall k g c, ray_rows asort comps lut' k g c = ray_rows asort comps lut k g c.
  Proof.
    induction k as [|k IH]; intros g c; simpl; auto. rewrite step_table. destruct (step_ray asort comps lut c); auto. f_equal. auto.
  Qed.
  Lemma settled_table : forall k g c, settled asort comps lut' k g c <-> settled asort comps lut k g c.
  Proof.
    induction k as [|k IH]; intros g c; simpl; rewrite step_table; destruct (step_ray asort comps lut c); try tauto. apply IH.
  Qed.
End BiggerTable.
Lemma collect_in : forall A (l : list (option A)) xs x, collect l = Some xs -> In (Some x) l -> In x xs.
Proof.
  intros A l xs x C I. apply collect_some in C. subst l. apply in_map_iff in I. destruct I as (y & E & I). inversion E; subst; auto.
Qed.
Lemma collect_in_inv : forall A (l : list (option A)) xs x, collect l = Some xs -> In x xs -> In (Some x) l.
Proof. intros A l xs x C I. apply collect_some in C. subst l. apply in_map; auto. Qed.
Theorem reload_partial : forall asort, argsort_ok asort ->
  forall h gen fuel fuel' cs t u t' u', new_tracer h (t_sources t) cs (t_n t) (t_limit t) = Some u ->
  NoDup (map fst (t_lut t)) -> NoDup (map fst (t_lut u)) -> incl (t_lut u) (t_lut t) ->
  (forall c, In c (source_rays gen t) -> c_gen c = O) ->
  trace asort h gen fuel (load_components cs t) = TOk t' -> trace asort h gen fuel' u = TOk u' ->
  f_rows (get_results t') = f_rows (get_results u').
Proof.
  intros asort AS h gen fuel fuel' cs t u t' u' NU ND ND' INC G0 T U.
  destruct (new_tracer_table _ _ _ _ _ _ NU) as ((luts & CL & EL) & EC & ES & EN & EM).
  assert (SR : source_rays gen (load_components cs t) = source_rays gen t) by reflexivity.
  assert (SU : source_rays gen u = source_rays gen t) by (unfold source_rays; rewrite ES, EN; auto).
  assert (EQ : forall i, rows_with_id i (f_rows (get_results t')) = rows_with_id i (f_rows (get_results u'))).
  { intros i. destruct (nth_error (source_rays gen t) i) as [c|] eqn:N.
    - destruct (rows_frame _ _ _ _ _ _ _ _ T N) as (comps & lut & k & C & L & -> & B & E).
      rewrite <- SU in N. destruct (rows_frame _ _ _ _ _ _ _ _ U N) as (comps' & lut' & k' & C' & L' & -> & B' & E').
      cbn [t_comps t_lut t_limit load_components] in *. rewrite EC, C in C'. inversion C'; subst comps'. rewrite EM in B', E'.
      rewrite EC in CL. destruct (table_entries _ _ _ _ C CL) as (TE & KE & _). rewrite <- EL, L' in TE. inversion TE; subst lut'.
      assert (KEYS : forall (h0 : heap) ls xs, collect (map (entry_of h0) ls) = Some xs -> map fst xs = map fst ls).
      { clear. intros h0. induction ls as [|l ls IH]; intros xs H; simpl in H; [inversion H; auto|].
        unfold entry_of at 1 in H. destruct (surf_of h0 (snd l)); [|discriminate]. destruct (collect (map (entry_of h0) ls)) as [ys|]; [|discriminate].
        inversion H. cbn [map fst]. f_equal. auto. }
      pose proof (KEYS _ _ _ L) as K1. pose proof (KEYS _ _ _ L') as K2.
      assert (HV : forall s, In s (flat_map surface_ids comps) -> In (s_id s, s) lut /\ In (s_id s, s) (table (flat_map surface_ids comps))).
      { intros s I. split; [|apply in_table; auto]. apply (collect_in _ (map (entry_of h) (t_lut t))); auto.
        pose proof (collect_in_inv _ _ _ _ L' (in_table _ _ I)) as J. apply in_map_iff in J. destruct J as (e & EE & J).
        rewrite <- EE. apply in_map. apply INC; auto. }
      rewrite <- K1 in ND. rewrite <- K2 in ND'. f_equal.
      rewrite (settled_table asort AS comps lut _ HV ND ND') in E'.
      rewrite (rows_table asort AS comps lut _ HV ND ND').
      symmetry. apply (rows_agree _ _ _ _ _ (t_limit t)); auto.
    - rewrite !rows_with_id_none; auto.
      + intros w W E. destruct (fields_carried _ _ _ _ _ _ U w W) as (c & K & _). rewrite SU in K. congruence.
      + intros w W E. destruct (fields_carried _ _ _ _ _ _ T w W) as (c & K & _). rewrite SR in K. congruence. }
  apply sorted_same.
  - eapply frame_in_order; eauto.
  - eapply frame_in_order; eauto. rewrite SU. auto.
  - intros w. split; intros W.
    + apply (in_rows_with_id (row_id w)). rewrite <- EQ. apply in_rows_with_id. auto.
    + apply (in_rows_with_id (row_id w)). rewrite EQ. apply in_rows_with_id. auto.
Qed.

(** ** Rays that leave no row *)
Lemma shape_ids_pos : forall h l s f, shape_of h l = Some s -> In f (surface_ids s) -> (0 <= s_id f)%Z.
Proof. intros h l s f H I. unfold shape_of in H. destruct (shape_lut _ _ _ _ H) as (_ & _ & _ & P & _). auto. Qed.
Theorem no_row : forall asort, argsort_ok asort -> forall h gen fuel t t' comps,
  trace asort h gen fuel t = TOk t' -> map (shape_of h) (t_comps t) = map Some comps ->
  forall i c, nth_error (source_rays gen t) i = Some c ->
  (rows_with_id i (f_rows (get_results t')) = [] <-> stopped c \/ no_hit asort comps (c_ray c)).
Proof.
  intros asort AS h gen fuel t t' comps T SH i c N.
  destruct (trace_inv _ _ _ _ _ _ T) as (comps' & lut & k & C & L & _ & F & _ & (NF & B & E) & _).
  rewrite SH, collect_map_some in C. inversion C; subst comps'. clear C.
  assert (POS : forall s, In s (flat_map surface_ids comps) -> (0 <= s_id s)%Z).
  { intros s I. apply in_flat_map in I. destruct I as (sh & IS & I).
    assert (J : In (Some sh) (map (shape_of h) (t_comps t))) by (rewrite SH; apply in_map; auto).
    apply in_map_iff in J. destruct J as (l & El & _). eapply shape_ids_pos; eauto. }
  unfold get_results. rewrite F, (batch_of_one asort comps lut k 0 i _ _ (renumber_ids _ 0 i c N)).
  assert (IN : In (with_id i c) (renumber 0 (source_rays gen t))) by (apply nth_error_In with (n := i); apply (renumber_nth _ 0 i c N)).
  simpl plus. assert (ST : step_ray asort comps lut (with_id i c) = SStop <-> stopped c \/ no_hit asort comps (c_ray c)).
  { split.
    - intros H. unfold step_ray in H. destruct (dead (with_id i c) (propagate asort comps (with_id i c))) eqn:D.
      + unfold dead, logical_or_out in D. apply orb_true_iff in D. destruct D as [D|D]; [left; apply stopped_absorbed; exact D|right].
        destruct (propagate_first asort AS comps (with_id i c)) as [(_ & P)|(x & sid & P & FH)]; [exact P|].
        rewrite P in D. cbn [snd] in D. apply Z.eqb_eq in D.
        destruct (first_hit_surface asort AS _ _ _ _ FH) as (s & f & IS & I & Ef & _).
        assert (0 <= s_id f)%Z by (apply POS; apply in_flat_map; eauto). lia.
      + destruct (snd (cell_of asort comps lut (with_id i c))); [|discriminate].
        destruct (make_row _ _ _); discriminate.
    - intros H. unfold step_ray. replace (dead (with_id i c) (propagate asort comps (with_id i c))) with true; auto. symmetry.
      unfold dead, logical_or_out. destruct H as [H|H].
      + apply stopped_absorbed in H. change (absorbed (with_id i c)) with (absorbed c). rewrite H. auto.
      + destruct (propagate_first asort AS comps (with_id i c)) as [(P & _)|(x & sid & _ & (a & b & R & _))].
        * rewrite P. cbn. rewrite orb_true_r. auto.
        * exfalso. eapply H; eauto. }
  rewrite <- ST. destruct k as [|k].
  - destruct E as [(E & _)|(E & _)]; [lia|]. specialize (E _ IN). simpl in *. destruct (step_ray asort comps lut (with_id i c)); tauto.
  - specialize (NF _ IN). simpl in *. destruct (step_ray asort comps lut (with_id i c)); try tauto. split; discriminate.
Qed.

(** ** Scenes *)
Theorem program_proper : forall asort gen cs cs' h0 h ss ls n lim t0 t,
  run_prog asort cs empty_heap = Ok h0 -> new_tracer h0 ss ls n lim = Some t0 -> NoDup (flat_map (parts h0) ls) ->
  run_prog asort cs' h0 = Ok h ->
  t_comps t = ls -> t_lut t = t_lut t0 -> (1 <= t_limit t)%Z -> t_sources t <> [] ->
  (forall c, In c (source_rays gen t) -> ray_ok c /\ c_gen c = O) ->
  Forall (fit_call (fun wl => exists c, In c (source_rays gen t) /\ c_wl c = wl)) (cs ++ cs') ->
  exists comps, proper gen h t comps.
Proof.
  intros asort gen cs cs' h0 h ss ls n lim t0 t H0 NT ND H1 TC TL L S R F.
  destruct (scene_reached asort _ cs cs' h0 h ss ls n lim t0 t F H0 H1 NT ND TC TL) as (comps & SC & PO).
  exists comps. split; [|split; [|split; [|split]]]; auto.
Qed.
Theorem proper_trace_ok : forall asort, argsort_ok asort -> forall gen h t comps fuel, proper gen h t comps ->
  (2 * Z.to_nat (t_limit t) + 2 <= fuel)%nat -> exists t', trace asort h gen fuel t = TOk t'.
Proof.
  intros asort AS gen h t comps fuel (SC & L & S & R & PO) FU. pose proof SC as (SH & TC & _).
  eapply (trace_succeeds asort AS h gen t fuel comps); eauto.
  - eapply scene_nodup; eauto.
  - intros c I. apply R; auto.
Qed.
Theorem trace_bounded : forall asort h gen t fuel, (1 <= t_limit t)%Z -> (2 * Z.to_nat (t_limit t) + 2 <= fuel)%nat ->
  trace asort h gen fuel t <> TFuel /\
  forall t', trace asort h gen fuel t = TOk t' -> (Z.of_nat (t_gen t') <= t_limit t)%Z.
Proof.
  intros asort h gen t fuel L F. split; [apply trace_terminates; auto|]. intros t' T. eapply gen_bound; eauto.
Qed.
Theorem row_of_ray : forall asort h gen fuel t t', trace asort h gen fuel t = TOk t' ->
  forall w, In w (f_rows (get_results t')) ->
  exists c j, nth_error (source_rays gen t) (row_id w) = Some c /\
    nth_error (rows_with_id (row_id w) (f_rows (get_results t'))) j = Some w.
Proof.
  intros asort h gen fuel t t' T w W. destruct (fields_carried _ _ _ _ _ _ T w W) as (c & N & _).
  assert (I : In w (rows_with_id (row_id w) (f_rows (get_results t')))) by (apply in_rows_with_id; auto).
  apply In_nth_error in I. destruct I as (j & J). eauto.
Qed.
Theorem proper_legs : forall asort, argsort_ok asort -> forall gen h t comps fuel t', proper gen h t comps ->
  trace asort h gen fuel t = TOk t' ->
  (forall w, In w (f_rows (get_results t')) -> leg asort comps w) /\
  (forall i j w w', nth_error (rows_with_id i (f_rows (get_results t'))) j = Some w ->
     nth_error (rows_with_id i (f_rows (get_results t'))) (S j) = Some w' -> follows w w').
Proof.
  intros asort AS gen h t comps fuel t' (SC & L & S & R & PO) T. split.
  - intros w W. destruct (row_of_ray _ _ _ _ _ _ T w W) as (c & j & N & J).
    destruct (scene_legs asort AS _ _ _ _ _ _ T SC R PO _ _ _ N eq_refl) as (_ & A & _). eauto.
  - intros i j w w' J J'. assert (W : In w (f_rows (get_results t')) /\ row_id w = i).
    { apply in_rows_with_id. eapply nth_error_In; eauto. }
    destruct W as (W & <-). destruct (row_of_ray _ _ _ _ _ _ T w W) as (c & _ & N & _).
    destruct (scene_legs asort AS _ _ _ _ _ _ T SC R PO _ _ _ N eq_refl) as (_ & _ & B & _). apply (B j); auto.
Qed.
Theorem proper_bounces : forall asort, argsort_ok asort -> forall gen h t comps fuel t', proper gen h t comps ->
  trace asort h gen fuel t = TOk t' -> forall i rows, rows = rows_with_id i (f_rows (get_results t')) ->
  (forall w, nth_error rows 0 = Some w -> exists c, nth_error (source_rays gen t) i = Some c /\ first_row c w) /\
  (forall j w w', nth_error rows j = Some w -> nth_error rows (S j) = Some w' -> bounce (flat_map surface_ids comps) w w') /\
  (forall j w, nth_error rows j = Some w -> nth_error rows (S j) = None -> over asort comps (t_limit t) w).
Proof.
  intros asort AS gen h t comps fuel t' (SC & L & S & R & PO) T i rows ->.
  assert (K : forall j w, nth_error (rows_with_id i (f_rows (get_results t'))) j = Some w -> exists c, nth_error (source_rays gen t) i = Some c).
  { intros j w J. assert (W : In w (f_rows (get_results t')) /\ row_id w = i) by (apply in_rows_with_id; eapply nth_error_In; eauto).
    destruct W as (W & <-). destruct (row_of_ray _ _ _ _ _ _ T w W) as (c & _ & N & _). eauto. }
  split; [|split].
  - intros w J. destruct (K _ _ J) as (c & N). exists c. split; auto.
    destruct (scene_legs asort AS _ _ _ _ _ _ T SC R PO _ _ _ N eq_refl) as (A & _). exact (A w J).
  - intros j w w' J J'. destruct (K _ _ J) as (c & N).
    destruct (scene_legs asort AS _ _ _ _ _ _ T SC R PO _ _ _ N eq_refl) as (_ & _ & B & _). apply (B j); auto.
  - intros j w J J'. destruct (K _ _ J) as (c & N).
    destruct (scene_legs asort AS _ _ _ _ _ _ T SC R PO _ _ _ N eq_refl) as (_ & _ & _ & B & _). apply (B j); auto.
Qed.
Theorem proper_index : forall asort, argsort_ok asort -> forall gen h t comps fuel t', proper gen h t comps ->
  trace asort h gen fuel t = TOk t' -> forall i rows, rows = rows_with_id i (f_rows (get_results t')) ->
  (forall w, nth_error rows 0 = Some w -> exists c, nth_error (source_rays gen t) i = Some c /\ row_idx w = c_idx c) /\
  (forall j w w', nth_error rows j = Some w -> nth_error rows (S j) = Some w' ->
   exists s n, In s (flat_map surface_ids comps) /\ s_id s = row_surf w /\ world_normal s (here (row_end w)) = Some n /\
   let entering := ~ 0 < vdot (row_tilt w) n in
   let sine := vnorm (tangential (row_tilt w) n) in
   (s_mat s = Mirror /\ row_idx w' = row_idx w) \/
   (exists index_at g, s_mat s = Refractor index_at /\ index_at (row_wl w) = Fin g /\
      ((entering /\ row_idx w * sine < g /\ row_idx w' = g) \/
       (entering /\ g <= row_idx w * sine /\ row_idx w' = row_idx w) \/
       (~ entering /\ row_idx w * sine < world_index /\ row_idx w' = world_index) \/
       (~ entering /\ world_index <= row_idx w * sine /\ row_idx w' = row_idx w)))).
Proof.
  intros asort AS gen h t comps fuel t' PR T i rows E. destruct (proper_bounces asort AS _ _ _ _ _ _ PR T i rows E) as (A & B & _). split.
  - intros w W. destruct (A w W) as (c & N & (_ & _ & I & _)). eauto.
  - intros j w w' W W'. destruct (B j w w' W W') as (s & n & IS & ID & WN & U & BO). exists s, n.
    split; auto. split; auto. split; auto. cbv zeta. destruct (s_mat s) as [| |ia|] eqn:M; try contradiction.
    + left. split; auto. apply BO.
    + right. destruct BO as (g & IA & BO1 & BO2). exists ia, g. split; auto. split; auto.
      unfold next_index in *. destruct (Rlt_dec 0 (vdot (row_tilt w) n)) as [X|X].
      * destruct (Rlt_le_dec (row_idx w * vnorm (tangential (row_tilt w) n)) world_index) as [Y|Y].
        -- right. right. left. split; [tauto|]. split; auto. apply BO1; auto.
        -- right. right. right. split; [tauto|]. split; auto. apply BO2; auto.
      * destruct (Rlt_le_dec (row_idx w * vnorm (tangential (row_tilt w) n)) g) as [Y|Y].
        -- left. split; [tauto|]. split; auto. apply BO1; auto.
        -- right. left. split; [tauto|]. split; auto. apply BO2; auto.
Qed.
Theorem absorbed_once : forall asort, argsort_ok asort -> forall h gen fuel t t' comps,
  trace asort h gen fuel t = TOk t' -> scene h t comps ->
  forall i j w s, nth_error (rows_with_id i (f_rows (get_results t'))) j = Some w ->
  In s (flat_map surface_ids comps) -> s_id s = row_surf w -> s_mat s = Absorber ->
  nth_error (rows_with_id i (f_rows (get_results t'))) (S j) = None.
Proof.
  intros asort AS h gen fuel t t' comps T SC i j w s J I E M.
  assert (W : In w (f_rows (get_results t')) /\ row_id w = i) by (apply in_rows_with_id; eapply nth_error_In; eauto).
  destruct W as (W & <-). destruct (row_of_ray _ _ _ _ _ _ T w W) as (c & _ & N & _).
  pose proof (scene_histories asort AS _ _ _ _ _ _ T SC _ _ N) as H. destruct SC as (_ & _ & ND).
  eapply history_absorber; eauto.
Qed.
Theorem repeatable : forall asort h gen cs t t2 fuel fuel' t1 t3, after_calls asort h gen cs t t2 ->
  trace asort h gen fuel t = TOk t1 -> trace asort h gen fuel' t2 = TOk t3 -> get_results t3 = get_results t1.
Proof.
  intros asort h gen cs t t2 fuel fuel' t1 t3 C T1 T3. apply calls_setup in C.
  pose proof (trace_more _ _ _ _ _ fuel' _ T1 ltac:(discriminate)) as A.
  pose proof (trace_more _ _ _ _ _ fuel _ T3 ltac:(discriminate)) as B. rewrite Nat.add_comm in B.
  pose proof (trace_same_setup asort h gen (fuel + fuel') t t2 C) as S. rewrite A, B in S. simpl in S. symmetry. apply S.
Qed.
Theorem repeat_succeeds : forall asort h gen cs t t2 fuel t1, after_calls asort h gen cs t t2 ->
  trace asort h gen fuel t = TOk t1 -> exists t3, trace asort h gen fuel t2 = TOk t3.
Proof.
  intros asort h gen cs t t2 fuel t1 C T1. apply calls_setup in C.
  pose proof (trace_same_setup asort h gen fuel t t2 C) as S. rewrite T1 in S. simpl in S.
  destruct (trace asort h gen fuel t2); try contradiction. eauto.
Qed.

(** ** Cases on the bench *)
Lemma a_bench : forall asort, exists h, on_bench asort h.
Proof. intros asort. destruct (bench asort) as (h & H). exists h. exact H. Qed.
Lemma four : forall ls, (forall l, In l ls -> (l < 4)%nat) -> Forall (fun l => (l < 4)%nat) ls.
Proof. intros ls H. apply Forall_forall. auto. Qed.
Ltac bench_list := repeat constructor; cbn; intuition lia.
Definition bench_run (asort : list xr -> list nat) (ls : list loc) (limit : Z) (h : heap) (t : tracer) : Prop :=
  run_prog asort bench_calls empty_heap = Ok h /\ new_tracer h [9%nat] ls 1 limit = Some t.
Lemma a_run : forall asort h ls limit, on_bench asort h -> Forall (fun l => (l < 4)%nat) ls -> exists t, bench_run asort ls limit h t.
Proof.
  intros asort h ls limit B L. eexists. split; [apply B|]. apply (bench_tracer asort); auto.
Qed.

Lemma trapped_case : forall asort limit, (limit <= 0)%Z -> exists h t, bench_run asort [0; 3]%nat limit h t /\
  forall fuel, trace asort h (emit 1 1) fuel t = TFuel.
Proof.
  intros asort limit L. destruct (a_bench asort) as (h & B). destruct (a_run asort h [0; 3]%nat limit B ltac:(bench_list)) as (t & R).
  exists h, t. split; auto. intros fuel. eapply trapped; eauto. apply R.
Qed.
Lemma zero_limit_rows : forall asort, exists h t t' w, bench_run asort [0; 2]%nat 0 h t /\
  trace asort h (emit 1 1) 9 t = TOk t' /\ In w (f_rows (get_results t')) /\ ~ (Z.of_nat (row_gen w) < t_limit t)%Z.
Proof.
  intros asort. destruct (a_bench asort) as (h & B). destruct (a_run asort h [0; 2]%nat 0 B ltac:(bench_list)) as (t & R).
  pose proof R as (_ & NT). destruct (there_and_back asort h B 1 0 0 t ltac:(lia) ltac:(lia) NT) as (t' & T & F).
  exists h, t, t', (out_row 1). split; auto. split; auto. split; [rewrite F; left; auto|].
  destruct (new_tracer_table _ _ _ _ _ _ NT) as (_ & _ & _ & _ & ->). cbn. lia.
Qed.
Lemma shared_surface_case : forall asort, exists h t t' w, bench_run asort [0; 0]%nat 1 h t /\
  trace asort h (emit 1 1) 5 t = TOk t' /\ In w (f_rows (get_results t')) /\
  ~ exists x, 0 < x /\ row_end w = vadd (row_start w) (vscale x (row_tilt w)).
Proof.
  intros asort. destruct (a_bench asort) as (h & B). destruct (a_run asort h [0; 0]%nat 1 B ltac:(bench_list)) as (t & R).
  pose proof R as (_ & NT). destruct (mirror_twice asort h B 0 t NT) as (t' & T & F).
  exists h, t, t', twice_row. split; auto. split; auto. split; [rewrite F; left; auto|].
  intros (x & P & E). unfold twice_row in E. cbn [row_end row_start row_tilt] in E.
  unfold vadd, vscale, vector in E; cbn [vx vy vz vw] in E. injection E as _ _ E _. lra.
Qed.
(** two hits on one surface bring the ray back to where it came from *)
Lemma applied_twice_case : forall asort, exists h t t' w, bench_run asort [0; 0]%nat 1 h t /\
  trace asort h (emit 1 1) 5 t = TOk t' /\ f_rows (get_results t') = [w] /\ row_end w = row_start w.
Proof.
  intros asort. destruct (a_bench asort) as (h & B). destruct (a_run asort h [0; 0]%nat 1 B ltac:(bench_list)) as (t & R).
  pose proof R as (_ & NT). destruct (mirror_twice asort h B 0 t NT) as (t' & T & F).
  exists h, t, t', twice_row. auto.
Qed.
Lemma threshold_case : forall asort, exists h t t' w, bench_run asort [0; 2]%nat 10 h t /\
  trace asort h (emit 1 (1 / 100)) 9 t = TOk t' /\ In w (f_rows (get_results t')) /\
  row_gen w = 1%nat /\ row_int w < ray_intensity_threshold.
Proof.
  intros asort. destruct (a_bench asort) as (h & B). destruct (a_run asort h [0; 2]%nat 10 B ltac:(bench_list)) as (t & R).
  pose proof R as (_ & NT). destruct (there_and_back asort h B (1 / 100) 10 0 t ltac:(lia) ltac:(lia) NT) as (t' & T & F).
  exists h, t, t', (back_row (1 / 100)). split; auto. split; auto. split; [rewrite F; right; left; auto|].
  split; auto. cbn. unfold ray_intensity_threshold. lra.
Qed.
Lemma stale_case : forall asort, exists h t u t' u', bench_run asort [0%nat] 1 h t /\ bench_run asort [2%nat] 1 h u /\
  trace asort h (emit (-1) 1) 5 (load_components [2%nat] t) = TOk t' /\ trace asort h (emit (-1) 1) 5 u = TOk u' /\
  f_rows (get_results t') <> f_rows (get_results u').
Proof.
  intros asort. destruct (a_bench asort) as (h & B). destruct (a_run asort h [0%nat] 1 B ltac:(bench_list)) as (t & R).
  destruct (a_run asort h [2%nat] 1 B ltac:(bench_list)) as (u & R').
  destruct (stale_table asort h B 0 t u (proj2 R) (proj2 R')) as (t' & u' & T & U & F & G).
  exists h, t, u, t', u'. split; auto. split; auto. split; auto. split; auto. rewrite F, G. unfold stale_row, fresh_row, vector.
  intros E. injection E as E. lra.
Qed.
Lemma trunc_half : trunc (INR 1 / INR 2) = 0%Z.
Proof.
  unfold trunc. cbn [INR]. destruct (Rle_dec 0 (1 / (1 + 1))) as [_|N]; [|elim N; lra].
  destruct (base_Int_part (1 / (1 + 1))) as (A & B).
  assert (C : (-1 < Int_part (1 / (1 + 1)) < 1)%Z) by (split; apply lt_IZR; lra). lia.
Qed.
Lemma renumbered_case : forall asort, argsort_ok asort -> exists h t t' m w, 
  run_prog asort bench_calls empty_heap = Ok h /\ new_tracer h [8; 9]%nat [2%nat] 1 1 = Some t /\
  trace asort h (emit (-1) 1) 5 t = TOk t' /\ nth_error (f_rows (get_results t')) m = Some w /\
  row_id w = 1%nat /\ (forall s, length (emit (-1) 1 s (t_n t)) = 1%nat) /\
  exists ids, f_source_ids (get_results (calculate_source_ids (set_rays_per_source 2 t'))) = Some ids /\ nth_error ids m = Some 0%Z.
Proof.
  intros asort AS. destruct (a_bench asort) as (h & B).
  pose proof (bench_tracer asort h [8; 9]%nat [2%nat] 1 1 B ltac:(bench_list)) as NT.
  destruct (two_lamps asort h B _ AS NT) as (t' & T & W & _). apply In_nth_error in W. destruct W as (m & M).
  eexists h, _, t', m, _. split; [apply B|]. split; [exact NT|]. split; [exact T|]. split; [exact M|]. split; [reflexivity|].
  split; [intros s; reflexivity|]. eexists. split; [reflexivity|].
  unfold get_results in *. rewrite nth_error_map. 
  change (f_rows (t_frame (set_rays_per_source 2 t'))) with (f_rows (t_frame t')). rewrite M. cbn [option_map].
  change (t_n (set_rays_per_source 2 t')) with 2%nat. f_equal. exact trunc_half.
Qed.

(** ** Concrete cases meeting the hypotheses *)
Lemma proper_case : forall asort, argsort_ok asort -> exists h t t', bench_run asort [1; 2]%nat 2 h t /\
  proper (emit (-1) 1) h t (map bench_shape [1; 2]%nat) /\
  trace asort h (emit (-1) 1) 7 t = TOk t' /\ f_rows (get_results t') = [glass_row; inside_row].
Proof.
  intros asort AS. destruct (a_bench asort) as (h & B). destruct (a_run asort h [1; 2]%nat 2 B ltac:(bench_list)) as (t & R).
  pose proof R as (_ & NT). destruct (through_glass asort h B 0 t NT) as (t' & T & F).
  exists h, t, t'. split; auto. split; [|auto].
  eapply (bench_proper asort h _ _ _ _ _ _ _ B); [| | | | |exact NT]; [dirs|bench_list|bench_list|discriminate|lia].
Qed.
Lemma mirror_case : forall asort, exists h t t', bench_run asort [0; 2]%nat 10 h t /\
  proper (emit 1 1) h t (map bench_shape [0; 2]%nat) /\
  trace asort h (emit 1 1) 9 t = TOk t' /\ f_rows (get_results t') = [out_row 1; back_row 1].
Proof.
  intros asort. destruct (a_bench asort) as (h & B). destruct (a_run asort h [0; 2]%nat 10 B ltac:(bench_list)) as (t & R).
  pose proof R as (_ & NT). destruct (there_and_back asort h B 1 10 0 t ltac:(lia) ltac:(lia) NT) as (t' & T & F).
  exists h, t, t'. split; auto. split; [|auto].
  eapply (bench_proper asort h _ _ _ _ _ _ _ B); [| | | | |exact NT]; [dirs|bench_list|bench_list|discriminate|lia].
Qed.
(** the order of the two components reversed *)
Lemma swapped_case : forall asort, argsort_ok asort -> exists h t u t' u', bench_run asort [0; 2]%nat 10 h t /\ bench_run asort [2; 0]%nat 10 h u /\
  proper (emit 1 1) h t (map bench_shape [0; 2]%nat) /\ scene h u (map bench_shape [2; 0]%nat) /\
  trace asort h (emit 1 1) 9 t = TOk t' /\ trace asort h (emit 1 1) 22 u = TOk u' /\
  f_rows (get_results t') = [out_row 1; back_row 1] /\
  forall w, In w (f_rows (get_results t')) -> untied asort (map bench_shape [0; 2]%nat) (Ray (here (row_start w)) (row_tilt w)).
Proof.
  intros asort AS. destruct (a_bench asort) as (h & B). destruct (a_run asort h [0; 2]%nat 10 B ltac:(bench_list)) as (t & R).
  destruct (a_run asort h [2; 0]%nat 10 B ltac:(bench_list)) as (u & R').
  pose proof R as (_ & NT). pose proof R' as (_ & NU). destruct (there_and_back asort h B 1 10 0 t ltac:(lia) ltac:(lia) NT) as (t' & T & F).
  assert (PT : proper (emit 1 1) h t (map bench_shape [0; 2]%nat)).
  { eapply (bench_proper asort h _ _ _ _ _ _ _ B); [| | | | |exact NT]; [dirs|bench_list|bench_list|discriminate|lia]. }
  assert (PU : proper (emit 1 1) h u (map bench_shape [2; 0]%nat)).
  { eapply (bench_proper asort h _ _ _ _ _ _ _ B); [| | | | |exact NU]; [dirs|bench_list|bench_list|discriminate|lia]. }
  destruct (proper_trace_ok asort AS _ _ _ _ 22 PU) as (u' & U).
  { destruct (new_tracer_table _ _ _ _ _ _ NU) as (_ & _ & _ & _ & ->). cbn. lia. }
  exists h, t, u, t', u'. split; auto. split; auto. split; auto. split; [apply PU|]. split; auto. split; auto. split; auto.
  rewrite F. assert (K : forall p d, d = 1 \/ d = -1 -> (1 - p) * d <> (-2 - p) * d -> untied asort (map bench_shape [0; 2]%nat) (axis p d)).
  { intros p d D NE x sid i k sid1 i' k' sid2 _ (s & N & A & _) (s' & N' & A' & _).
    assert (Q : forall i k s, nth_error (map bench_shape [0; 2]%nat) i = Some s -> nth_error (fst (shape_intersect asort s (axis p d))) k = Some (Fin x) ->
      (i = 0%nat /\ x = (1 - p) * d) \/ (i = 1%nat /\ x = (-2 - p) * d)).
    { clear - D. intros i k s N A. destruct i as [|[|i]]; cbn in N.
      - left. split; auto. injection N as <-. unfold standing in A. rewrite sheet_hits in A by auto.
        destruct k as [|[|k]]; cbn in A; try (injection A as <-; auto). destruct k; discriminate.
      - right. split; auto. injection N as <-. unfold standing in A. rewrite sheet_hits in A by auto.
        destruct k as [|[|k]]; cbn in A; try (injection A as <-; auto). destruct k; discriminate.
      - destruct i; discriminate. }
    destruct (Q _ _ _ N A) as [(-> & E)|(-> & E)], (Q _ _ _ N' A') as [(-> & E')|(-> & E')]; auto; congruence. }
  pose proof near_stop. intros w [<-|[<-|[]]].
  - apply (K 0 1); [dirs|lra].
  - apply (K (1 - ray_offset_value) (-1)); [dirs|lra].
Qed.
(** a tracer built on three components, then given two of them *)
Lemma reload_case : forall asort, argsort_ok asort -> exists h t u t' u', bench_run asort [0; 1; 2]%nat 2 h t /\
  new_tracer h (t_sources t) [1; 2]%nat (t_n t) (t_limit t) = Some u /\
  NoDup (map fst (t_lut t)) /\ NoDup (map fst (t_lut u)) /\ incl (t_lut u) (t_lut t) /\
  (forall c, In c (source_rays (emit (-1) 1) t) -> c_gen c = O) /\
  trace asort h (emit (-1) 1) 7 (load_components [1; 2]%nat t) = TOk t' /\ trace asort h (emit (-1) 1) 7 u = TOk u' /\
  f_rows (get_results u') = [glass_row; inside_row].
Proof.
  intros asort AS. destruct (a_bench asort) as (h & B).
  pose proof (bench_tracer asort h [9%nat] [0; 1; 2]%nat 1 2 B ltac:(bench_list)) as NT.
  pose proof (bench_tracer asort h [9%nat] [1; 2]%nat 1 2 B ltac:(bench_list)) as NU.
  destruct (through_glass asort h B 0 _ NU) as (u' & U & F).
  destruct (glass_steps asort) as (c1 & c2 & X & X').
  assert (HV : forall s, In s (flat_map surface_ids (map bench_shape [1; 2]%nat)) ->
     In (s_id s, s) (map bench_entry [1; 2]%nat) /\ In (s_id s, s) (map bench_entry [0; 1; 2]%nat)).
  { intros s [<-|[<-|[]]]; cbn; auto. }
  assert (ND : NoDup (map fst (map bench_entry [1; 2]%nat))) by (cbn; bench_list).
  assert (ND' : NoDup (map fst (map bench_entry [0; 1; 2]%nat))) by (cbn; bench_list).
  pose proof (step_table asort AS _ _ _ HV ND ND') as ST. rewrite <- ST in X, X'.
  destruct (two_steps asort h (emit (-1) 1) [1; 2]%nat [0; 1; 2]%nat (Col (axis 0 (-1)) 0 1 1 1 0) _ _ _ _ 0
    (load_components [1; 2]%nat (Tracer empty_frame IDLE 0 false [9%nat] [0; 1; 2]%nat 1 2 [] [] (map (fun l => (Z.of_nat l, l)) [0; 1; 2]%nat)))
    B ltac:(bench_list) ltac:(bench_list) eq_refl eq_refl eq_refl ltac:(discriminate) eq_refl X X') as (t' & T & _).
  eexists h, _, _, t', u'. split; [split; [apply B|exact NT]|]. split; [exact NU|]. split; [cbn; bench_list|]. split; [cbn; bench_list|].
  split; [intros e; cbn; tauto|]. split; [intros c [<-|[]]; reflexivity|]. split; [exact T|]. auto.
Qed.
