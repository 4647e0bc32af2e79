(** * TraceFacts9: rays on their own, the order of rows and of components *)
From Coq Require Import Reals List Bool ZArith Lia Lra Psatz Permutation Sorted FinFun.
Import ListNotations.
From Verif Require Import XR Arr Lin LinFacts Ops Prim Csg Surf SpecGeom SpecTree World SpecWorld SpecOptics Tracer SpecTrace
  XRFacts PrimFacts PrimFacts2 TreeFacts NormalFacts OpsFacts CsgProps
  TraceFacts TraceFacts2 TraceFacts3 TraceFacts4 TraceFacts5 TraceFacts6 TraceFacts7 TraceFacts8.
Open Scope R_scope.

(** ** Absorbed rays *)
Lemma history_absorber : forall asort comps surfaces limit g c rows, NoDup (map s_id surfaces) ->
  history asort comps surfaces limit g c rows ->
  forall j w s, nth_error rows j = Some w -> In s surfaces -> s_id s = row_surf w -> s_mat s = Absorber ->
  nth_error rows (S j) = None.
Proof.
  intros asort comps surfaces limit g c rows ND H.
  induction H as [g c G L|g c S|g c t sid s c' rows B NS F I E M HI IH]; intros j w s0 N I0 E0 A;
    try (destruct j; discriminate).
  destruct j as [|j]; [|simpl; eapply IH; eauto]. inversion N; subst w. cbn [row_surf] in E0.
  assert (s0 = s) by (eapply same_surface; eauto; congruence). subst s0.
  unfold material_trace in M. rewrite A in M. inversion M; subst c'.
  inversion HI; subst; auto. exfalso. match goal with K : ~ stopped _ |- _ => apply K end.
  apply zero_stopped. reflexivity.
Qed.

(** ** Rays that leave no row *)
Lemma history_none : forall asort, argsort_ok asort -> forall comps surfaces limit c rows, (1 <= limit)%Z ->
  history asort comps surfaces limit 0 c rows -> (rows = [] <-> stopped c \/ no_hit asort comps (c_ray c)).
Proof.
  intros asort AS comps surfaces limit c rows L H. inversion H; subst; try lia.
  - tauto.
  - split; [discriminate|]. intros [K|K]; [contradiction|]. exfalso.
    match goal with F : first_hit _ _ _ _ _ |- _ => destruct F as (i & k & R & _) end. eapply K; eauto.
Qed.

(** ** Each ray is traced on its own *)
Lemma material_id : forall s i c, material_trace s (with_id i c) = option_map (with_id i) (material_trace s c).
Proof.
  intros s i c. unfold material_trace. destruct (s_mat s); cbn [c_ray with_id c_wl c_idx]; auto.
  - destruct (world_normal s (origin (c_ray c))); auto.
  - destruct (world_normal s (origin (c_ray c))); auto. destruct (index_at (c_wl c)); auto.
    destruct (refract _ _ _ _ _) as [[d m]|]; auto.
Qed.
Definition cell_id (i : nat) (x : cell) : cell := (fst x, option_map (with_id i) (snd x)).
Lemma apply_id : forall s i x, apply_surface s (cell_id i x) = cell_id i (apply_surface s x).
Proof.
  intros s i [h [c|]]; unfold apply_surface, cell_id; cbn [fst snd option_map]; auto.
  destruct (fst h); auto. change (forward r (with_id i c)) with (with_id i (forward r c)). rewrite material_id. auto.
Qed.
Lemma cell_pass_id : forall lut i x, cell_pass lut (cell_id i x) = cell_id i (cell_pass lut x).
Proof.
  induction lut as [|e lut IH]; intros i x; [reflexivity|].
  change (cell_pass (e :: lut) (cell_id i x)) with
    (cell_pass lut (if Z.eqb (snd (hit_of x)) (fst e) then apply_surface (snd e) (cell_id i x) else cell_id i x)).
  change (cell_pass (e :: lut) x) with
    (cell_pass lut (if Z.eqb (snd (hit_of x)) (fst e) then apply_surface (snd e) x else x)).
  destruct (Z.eqb (snd (hit_of x)) (fst e)); [rewrite apply_id|]; auto.
Qed.
Lemma step_id : forall asort comps lut i c, step_ray asort comps lut (with_id i c) =
  match step_ray asort comps lut c with SGo w n => SGo (row_with_id i w) (with_id i n) | x => x end.
Proof.
  intros asort comps lut i c. unfold step_ray.
  change (dead (with_id i c) (propagate asort comps (with_id i c))) with (dead c (propagate asort comps c)).
  destruct (dead c (propagate asort comps c)); auto. unfold cell_of.
  change (propagate asort comps (with_id i c)) with (propagate asort comps c).
  assert (E : start_cell (propagate asort comps c) (with_id i c) = cell_id i (start_cell (propagate asort comps c) c)).
  { unfold start_cell, cell_id; cbn [fst snd option_map]. destruct (Z.eqb _ _); auto. }
  rewrite E, cell_pass_id. destruct (cell_pass lut _) as [h [n|]]; cbn [cell_id snd option_map]; auto.
  unfold make_row. cbn [c_ray with_id]. destruct (vnormalize _); auto.
Qed.
Lemma ray_rows_id : forall asort comps lut i k g c,
  ray_rows asort comps lut k g (with_id i c) = map (row_with_id i) (ray_rows asort comps lut k g c).
Proof.
  intros asort comps lut i. induction k as [|k IH]; intros g c; simpl; auto. rewrite step_id.
  destruct (step_ray asort comps lut c) as [| |w n]; auto. simpl. f_equal.
  change (onward g (with_id i n)) with (with_id i (onward g n)). apply IH.
Qed.
Lemma settled_id : forall asort comps lut i k g c,
  settled asort comps lut k g (with_id i c) <-> settled asort comps lut k g c.
Proof.
  intros asort comps lut i. induction k as [|k IH]; intros g c; simpl; rewrite step_id;
    destruct (step_ray asort comps lut c) as [| |w n]; try tauto.
  change (onward g (with_id i n)) with (with_id i (onward g n)). apply IH.
Qed.
Lemma rows_frame : forall asort h gen fuel t t' i c, trace asort h gen fuel t = TOk t' ->
  nth_error (source_rays gen t) i = Some c ->
  exists comps lut k,
    collect (map (shape_of h) (t_comps t)) = Some comps /\ collect (map (entry_of h) (t_lut t)) = Some lut /\
    rows_with_id i (f_rows (get_results t')) = map (row_with_id i) (ray_rows asort comps lut k 0 c) /\
    (forall j, (0 < j < k)%nat -> Z.of_nat j <> t_limit t) /\
    (((0 < k)%nat /\ Z.of_nat k = t_limit t) \/ settled asort comps lut k 0 c).
Proof.
  intros asort h gen fuel t t' i c T N.
  destruct (trace_inv _ _ _ _ _ _ T) as (comps & lut & k & C & L & _ & F & _ & (_ & B & E) & _).
  exists comps, lut, k. repeat split; auto.
  - unfold get_results. rewrite F, <- ray_rows_id. apply batch_of_one. apply (renumber_ids _ 0 i c N).
  - destruct E as [E|[E _]]; auto. right. rewrite <- (settled_id _ _ _ i). apply E.
    apply nth_error_In with (n := i). apply (renumber_nth _ 0 i c N).
Qed.
Theorem rays_independent : forall asort h gen gen' fuel fuel' t u t' u',
  trace asort h gen fuel t = TOk t' -> trace asort h gen' fuel' u = TOk u' ->
  t_comps t = t_comps u -> t_lut t = t_lut u -> t_limit t = t_limit u ->
  forall i j c, nth_error (source_rays gen t) i = Some c -> nth_error (source_rays gen' u) j = Some c ->
  rows_with_id j (f_rows (get_results u')) = map (row_with_id j) (rows_with_id i (f_rows (get_results t'))).
Proof.
  intros asort h gen gen' fuel fuel' t u t' u' T U EC EL EM i j c N M.
  destruct (rows_frame _ _ _ _ _ _ _ _ T N) as (comps & lut & k & C & L & -> & B & E).
  destruct (rows_frame _ _ _ _ _ _ _ _ U M) as (comps' & lut' & k' & C' & L' & -> & B' & E').
  rewrite <- EC, C in C'. inversion C'; subst comps'. rewrite <- EL, L in L'. inversion L'; subst lut'.
  rewrite <- EM in B', E'. rewrite map_map. 
  assert (Q : ray_rows asort comps lut k' 0 c = ray_rows asort comps lut k 0 c).
  { destruct (Nat.le_ge_cases k k') as [K|K].
    - destruct E as [(P & E)|E].
      + assert (k' = k); [|subst; auto]. destruct (Nat.eq_dec k' k); auto. exfalso. apply (B' k); auto. lia.
      + replace k' with (k + (k' - k))%nat by lia. apply settled_rows; auto.
    - destruct E' as [(P & E')|E'].
      + assert (k' = k); [|subst; auto]. destruct (Nat.eq_dec k' k); auto. exfalso. apply (B k'); auto. lia.
      + symmetry. replace k with (k' + (k - k'))%nat by lia. apply settled_rows; auto. }
  rewrite Q. apply map_ext. intros []; reflexivity.
Qed.

(** ** The order of the rows *)
Section Order.
  Variable asort : list xr -> list nat.
  Variable comps : list shape.
  Variable lut : list (Z * surf).
  Definition id_lt (c c' : col) : Prop := (c_id c < c_id c')%nat.

  Lemma sorted_app : forall A (Q : A -> A -> Prop) l l', StronglySorted Q l -> StronglySorted Q l' ->
    (forall a b, In a l -> In b l' -> Q a b) -> StronglySorted Q (l ++ l').
  Proof.
    intros A Q. induction l as [|a l IH]; intros l' S S' H; simpl; auto. inversion S; subst. constructor.
    - apply IH; auto. intros; apply H; auto. right; auto.
    - apply Forall_app. split; auto. apply Forall_forall. intros; apply H; [left|]; auto.
  Qed.
  Lemma flat_sorted : forall A B (Q : A -> A -> Prop) (Q' : B -> B -> Prop) (f : A -> list B) l,
    (forall a, f a = [] \/ exists b, f a = [b]) ->
    (forall a b a' b', In a l -> In a' l -> In b (f a) -> In b' (f a') -> Q a a' -> Q' b b') ->
    StronglySorted Q l -> StronglySorted Q' (flat_map f l).
  Proof.
    intros A B Q Q' f. induction l as [|a l IH]; intros S1 H S; simpl; [constructor|]. inversion S as [|? ? SL SF]; subst.
    rewrite Forall_forall in SF. apply sorted_app.
    - destruct (S1 a) as [->|(b & ->)]; repeat constructor.
    - apply IH; auto. intros; eapply H; eauto; right; auto.
    - intros b b' Ib Ib'. apply in_flat_map in Ib'. destruct Ib' as (a' & Ia & Ib'). eapply H; eauto; [left|right]; auto.
  Qed.
  Lemma batch_sorted : forall k g cs, Forall (fun c => c_gen c = g) cs -> StronglySorted id_lt cs ->
    StronglySorted earlier (batch asort comps lut k g cs) /\
    Forall (fun w => (g <= row_gen w)%nat) (batch asort comps lut k g cs).
  Proof.
    induction k as [|k IH]; intros g cs G S; simpl; [split; constructor|]. rewrite Forall_forall in G.
    assert (RG : forall c w, In c cs -> In w (step_rows asort comps lut c) -> row_gen w = g /\ row_id w = c_id c).
    { intros c w I W. unfold step_rows in W. destruct (step_ray asort comps lut c) as [| |w0 n] eqn:SR; try contradiction.
      destruct W as [<-|[]]. destruct (step_go _ _ _ _ _ _ SR) as (_ & _ & R). apply make_row_fields in R.
      destruct R as (R1 & _ & _ & _ & R2 & _). rewrite R1, R2, (G c I). auto. }
    destruct (IH (Datatypes.S g) (map (forward ray_offset_value) (flat_map (step_next asort comps lut g) cs))) as (S2 & F2).
    { rewrite onward_list. apply Forall_forall. intros c I. apply in_flat_map in I. destruct I as (c0 & _ & I).
      destruct (step_ray asort comps lut c0); try contradiction. destruct I as [<-|[]]. reflexivity. }
    { rewrite onward_list. apply (flat_sorted _ _ id_lt); auto.
      - intros a. destruct (step_ray asort comps lut a); eauto.
      - intros a b a' b' _ _ B B' L. destruct (step_ray asort comps lut a) as [| |w n] eqn:SA; try contradiction.
        destruct (step_ray asort comps lut a') as [| |w' n'] eqn:SA'; try contradiction.
        destruct B as [<-|[]], B' as [<-|[]]. destruct (step_carries _ _ _ _ _ _ SA) as [(C & _) _].
        destruct (step_carries _ _ _ _ _ _ SA') as [(C' & _) _]. unfold id_lt in *. cbn. rewrite C, C'. auto. }
    rewrite Forall_forall in F2. split.
    - apply sorted_app; auto.
      + apply (flat_sorted _ _ id_lt); auto.
        * intros a. unfold step_rows. destruct (step_ray asort comps lut a); eauto.
        * intros a b a' b' I I' B B' L. destruct (RG _ _ I B) as (E1 & E2). destruct (RG _ _ I' B') as (E3 & E4).
          right. rewrite E1, E2, E3, E4. auto.
      + intros a b A B. apply in_flat_map in A. destruct A as (c & I & A). destruct (RG _ _ I A) as (E & _).
        left. specialize (F2 b B). lia.
    - apply Forall_app. split; apply Forall_forall.
      + intros w W. apply in_flat_map in W. destruct W as (c & I & W). destruct (RG _ _ I W). lia.
      + intros w W. specialize (F2 w W). lia.
  Qed.
End Order.

Lemma renumber_sorted : forall cs j, StronglySorted id_lt (renumber j cs) /\ Forall (fun c => (j <= c_id c)%nat) (renumber j cs).
Proof.
  induction cs as [|c cs IH]; intros j; simpl; [split; constructor|]. destruct (IH (S j)) as (A & B). rewrite Forall_forall in B.
  split; constructor; auto.
  - apply Forall_forall. intros x I. specialize (B x I). unfold id_lt. cbn. lia.
  - apply Forall_forall. intros x I. specialize (B x I). lia.
Qed.
Lemma renumber_gen : forall cs j, Forall (fun c => c_gen c = O) cs -> Forall (fun c => c_gen c = O) (renumber j cs).
Proof. induction cs as [|c cs IH]; intros j F; simpl; auto. inversion F; subst. constructor; auto. Qed.

Theorem frame_in_order : forall asort h gen fuel t t', trace asort h gen fuel t = TOk t' ->
  (forall c, In c (source_rays gen t) -> c_gen c = O) ->
  StronglySorted earlier (f_rows (get_results t')).
Proof.
  intros asort h gen fuel t t' T G.
  destruct (trace_inv _ _ _ _ _ _ T) as (comps & lut & k & _ & _ & _ & F & _).
  unfold get_results. rewrite F. apply batch_sorted; [|apply renumber_sorted].
  apply renumber_gen. apply Forall_forall. auto.
Qed.

Lemma earlier_trans : forall a b c, earlier a b -> earlier b c -> earlier a c.
Proof. unfold earlier; intros; lia. Qed.
Lemma earlier_irrefl : forall a, ~ earlier a a.
Proof. unfold earlier; intros; lia. Qed.
Lemma sorted_same : forall l l', StronglySorted earlier l -> StronglySorted earlier l' ->
  (forall w, In w l <-> In w l') -> l = l'.
Proof.
  induction l as [|a l IH]; intros [|b l'] S S' E; auto.
  - exfalso. apply (E b). left; auto.
  - exfalso. apply (E a). left; auto.
  - inversion S as [|? ? SL SF]; subst. inversion S' as [|? ? SL' SF']; subst. rewrite Forall_forall in SF, SF'.
    assert (AB : a = b).
    { destruct (proj1 (E a)) as [|A]; [left; auto|auto|]. destruct (proj2 (E b)) as [|B]; [left; auto|auto|].
      exfalso. apply (earlier_irrefl a). eapply earlier_trans; eauto. }
    subst b. f_equal. apply IH; auto. intros w. split; intros W.
    + destruct (proj1 (E w)) as [|A]; [right; auto| |auto]. subst w. elim (earlier_irrefl a). auto.
    + destruct (proj2 (E w)) as [|A]; [right; auto| |auto]. subst w. elim (earlier_irrefl a). auto.
Qed.

(** ** The order of the components *)
Section Permuted.
  Variable asort : list xr -> list nat.
  Hypothesis AS : argsort_ok asort.
  Variables comps comps' : list shape.
  Hypothesis PE : Permutation comps comps'.

  Lemma reports_perm : exists f, forall r i k t sid, reports asort comps' r i k t sid <-> reports asort comps r (f i) k t sid.
  Proof.
    apply Permutation_nth_error in PE. destruct PE as (_ & f & _ & N). exists f. intros r i k t sid.
    unfold reports. rewrite N. tauto.
  Qed.
End Permuted.
Lemma no_hit_perm : forall asort comps comps' r, Permutation comps comps' -> no_hit asort comps r -> no_hit asort comps' r.
Proof.
  intros asort comps comps' r P N i k t sid R. destruct (reports_perm asort _ _ P) as (f & F). apply F in R. eapply N; eauto.
Qed.
Lemma first_hit_distance : forall asort comps comps' r t sid, argsort_ok asort -> Permutation comps comps' ->
  first_hit asort comps r t sid -> exists sid', first_hit asort comps' r t sid'.
Proof.
  intros asort comps comps' r t sid AS P (i & k & R & MI).
  destruct (reports_perm asort _ _ P) as (f & F). destruct (reports_perm asort _ _ (Permutation_sym P)) as (g & G).
  destruct (propagate_first asort AS comps' (Col r 0 0 0 0 0)) as [(_ & N)|(t' & sid' & _ & H)]; cbn [c_ray] in *.
  - exfalso. apply G in R. eapply N; eauto.
  - assert (t' = t); [|subst; eauto]. destruct H as (i' & k' & R' & MI').
    apply F in R'. apply G in R. destruct (MI _ _ _ _ R'), (MI' _ _ _ _ R); lra.
Qed.
Lemma first_hit_perm : forall asort comps comps' r t sid, argsort_ok asort -> Permutation comps comps' ->
  untied asort comps r -> first_hit asort comps r t sid -> first_hit asort comps' r t sid.
Proof.
  intros asort comps comps' r t sid AS P U H. destruct (first_hit_distance _ _ _ _ _ _ AS P H) as (sid' & H').
  assert (sid' = sid); [|subst; auto]. destruct (Permutation_nth_error comps comps') as (PN & _). destruct (PN P) as (_ & f & _ & N).
  assert (F : forall i k t sid, reports asort comps' r i k t sid <-> reports asort comps r (f i) k t sid)
    by (intros; unfold reports; rewrite N; tauto).
  pose proof H as (i & k & R & MI). destruct H' as (i' & k' & R' & MI').
  pose proof R' as R2. apply F in R2. assert (f i' = i) by (eapply U; eauto). subst i. apply F in R.
  assert (k = k').
  { destruct (MI _ _ _ _ R2) as [X|(_ & [X|(_ & X)])]; try lra; try lia.
    destruct (MI' _ _ _ _ R) as [Y|(_ & [Y|(_ & Y)])]; try lra; lia. }
  subst k'. destruct R as (s & A & _ & B & _), R' as (s' & A' & _ & B' & _). congruence.
Qed.
Lemma first_hit_unique : forall asort comps r t sid t' sid', first_hit asort comps r t sid -> first_hit asort comps r t' sid' ->
  t = t' /\ sid = sid'.
Proof.
  intros asort comps r t sid t' sid' (i & k & R & M) (i' & k' & R' & M').
  assert (E : t = t' /\ i = i' /\ k = k').
  { pose proof (M _ _ _ _ R') as A. pose proof (M' _ _ _ _ R) as B.
    destruct A as [A|(A & [A1|(A1 & A2)])], B as [B|(B & [B1|(B1 & B2)])]; try lra; try lia; repeat split; auto; lia. }
  destruct E as (-> & -> & ->). destruct R as (s & A & _ & B & _), R' as (s' & A' & _ & B' & _). split; congruence.
Qed.

Section PermutedHistory.
  Variable asort : list xr -> list nat.
  Hypothesis AS : argsort_ok asort.
  Variables comps comps' : list shape.
  Hypothesis PE : Permutation comps comps'.
  Notation surfaces := (flat_map surface_ids comps).
  Notation surfaces' := (flat_map surface_ids comps').
  Hypothesis ND : NoDup (map s_id surfaces).
  Variable P : R -> Prop.
  Hypothesis PARTS : forall s, In s surfaces -> part_ok P s.
  Variable limit : Z.

  Lemma history_perm : forall g c rows, history asort comps surfaces limit g c rows -> good P c ->
    (forall w, In w rows -> untied asort comps (Ray (here (row_start w)) (row_tilt w))) ->
    forall rows', history asort comps' surfaces' limit g c rows' -> rows' = rows.
  Proof.
    assert (SS : forall s, In s surfaces' <-> In s surfaces).
    { intros s. rewrite !in_flat_map. split; intros (x & I & J); exists x; split; auto;
        [eapply Permutation_in; [apply Permutation_sym, PE|auto]|eapply Permutation_in; eauto]. }
    intros g c rows H. induction H as [g c G L|g c S|g c t sid s c' rows B NS F I E M HI IH]; intros GD UT rows' H'.
    - inversion H'; subst; auto. exfalso. intuition lia.
    - inversion H'; subst; auto. exfalso. destruct S as [S|S]; [contradiction|].
      apply (no_hit_perm _ _ _ _ PE) in S.
      match goal with K : first_hit _ _ _ _ _ |- _ => destruct K as (i & k & R & _) end. eapply S; eauto.
    - assert (U : unit (direction (c_ray c))) by (apply (live_unit c); [exact (proj1 GD)|auto]).
      pose proof GD as ((OW & DW & _ & _) & _).
      assert (UN : untied asort comps (c_ray c)).
      { specialize (UT _ (or_introl eq_refl)). cbn [row_start row_tilt] in UT.
        rewrite here_trim, (trim_w0 (direction (c_ray c))), hat_unit in UT by auto. destruct (c_ray c); exact UT. }
      pose proof (first_hit_perm _ _ _ _ _ _ AS PE UN F) as F'.
      inversion H' as [? ? G' L'|? ? S'|? ? t1 sid1 s1 c1 rows1 B1 NS1 F1 I1 E1 M1 HI1]; subst.
      + exfalso. intuition lia.
      + exfalso. destruct S' as [S'|S']; [contradiction|]. destruct F' as (i & k & R & _). eapply S'; eauto.
      + destruct (first_hit_unique _ _ _ _ _ _ _ F' F1) as (<- & EI).
        assert (s1 = s) by (apply (same_surface surfaces); auto; apply SS; auto). subst s1.
        assert (c1 = c') by congruence. subst c1. f_equal. apply IH; auto.
        * destruct (material_ok P s c t (PARTS s I) (first_hit_at asort AS comps ND _ _ _ F I) (proj1 GD) U (proj2 GD)) as (c1 & M2 & OK1 & W1 & O1).
          assert (c1 = c') by congruence. subst c1.
          destruct OK1 as (A1 & A2 & A3 & A4). split; [|cbn; rewrite W1; apply GD].
          unfold ray_ok, forward; cbn [c_ray with_ray with_gen origin direction c_idx]. repeat split; auto.
          unfold vadd, vscale; cbn [vw]. rewrite A1, A2. ring.
        * intros w W. apply UT. right; auto.
  Qed.
End PermutedHistory.

Lemma scene_perm : forall h t u comps comps', scene h t comps -> map (shape_of h) (t_comps u) = map Some comps' ->
  Permutation (t_comps t) (t_comps u) -> Permutation comps comps'.
Proof.
  intros h t u comps comps' (SH & _) SU P. apply (Permutation_map (shape_of h)) in P. rewrite SH, SU in P.
  assert (Q : forall A (a b : list (option A)), Permutation a b -> Permutation (flat_map (fun x => match x with Some y => [y] | None => [] end) a)
    (flat_map (fun x => match x with Some y => [y] | None => [] end) b)) by (intros; apply Permutation_flat_map; auto).
  apply Q in P. assert (K : forall A (a : list A), flat_map (fun x => match x with Some y => [y] | None => [] end) (map Some a) = a)
    by (induction a as [|x a IH]; simpl; congruence). rewrite !K in P. auto.
Qed.

Theorem components_permuted : forall asort, argsort_ok asort ->
  forall h gen fuel fuel' t u t' u' comps comps',
  proper gen h t comps -> scene h u comps' -> Permutation (t_comps t) (t_comps u) ->
  t_sources u = t_sources t -> t_n u = t_n t -> t_limit u = t_limit t ->
  trace asort h gen fuel t = TOk t' -> trace asort h gen fuel' u = TOk u' ->
  (forall w, In w (f_rows (get_results t')) -> untied asort comps (Ray (here (row_start w)) (row_tilt w))) ->
  f_rows (get_results u') = f_rows (get_results t').
Proof.
  intros asort AS h gen fuel fuel' t u t' u' comps comps' (SC & L1 & _ & RO & PO) SU PM ES EN EL T U UT.
  assert (SR : source_rays gen u = source_rays gen t) by (unfold source_rays; rewrite ES, EN; auto).
  pose proof (scene_perm _ _ _ _ _ SC (proj1 SU) PM) as PE.
  assert (EQ : forall i, rows_with_id i (f_rows (get_results u')) = rows_with_id i (f_rows (get_results t'))).
  { intros i. destruct (nth_error (source_rays gen t) i) as [c|] eqn:N.
    - pose proof (scene_histories asort AS _ _ _ _ _ _ T SC i c N) as H.
      rewrite <- SR in N. pose proof (scene_histories asort AS _ _ _ _ _ _ U SU i c N) as H'. rewrite EL in H'.
      rewrite SR in N. pose proof (nth_error_In _ _ N) as IN. destruct SC as (SH & TC & ND).
      refine (history_perm asort AS comps comps' PE ND _ PO _ _ _ _ H _ _ _ H').
      + split; [exact (proj1 (RO c IN))|]. cbn. eauto.
      + intros w W. apply UT. apply in_rows_with_id in W. tauto.
    - rewrite !rows_with_id_none; auto.
      + intros w W E. destruct (fields_carried _ _ _ _ _ _ T w W) as (c & K & _). congruence.
      + intros w W E. destruct (fields_carried _ _ _ _ _ _ U w W) as (c & K & _). rewrite SR in K. congruence. }
  apply sorted_same.
  - eapply frame_in_order; eauto. rewrite SR. intros c I. apply RO; auto.
  - eapply frame_in_order; eauto. intros c I. apply RO; auto.
  - intros w. split; intros W.
    + apply (in_rows_with_id (row_id w)). rewrite <- EQ. apply in_rows_with_id. auto.
    + apply (in_rows_with_id (row_id w)). rewrite EQ. apply in_rows_with_id. auto.
Qed.
