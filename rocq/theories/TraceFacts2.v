(** * TraceFacts2: a run of the tracer, generation by generation and ray by ray *)
From Coq Require Import Reals List Bool ZArith Lia Lra Psatz.
Import ListNotations.
From Verif Require Import XR Arr Lin LinFacts Ops Prim Csg Surf World SpecWorld SpecOptics Tracer SpecTrace XRFacts TraceFacts.
Open Scope R_scope.

(** ** What an interaction never changes *)
Definition carries (c c' : col) : Prop :=
  c_id c' = c_id c /\ c_int c' = c_int c /\ c_wl c' = c_wl c /\ c_gen c' = c_gen c.
Lemma carries_refl : forall c, carries c c.
Proof. unfold carries; auto. Qed.
Lemma carries_trans : forall a b c, carries a b -> carries b c -> carries a c.
Proof. unfold carries; intros; intuition congruence. Qed.
Lemma material_carries : forall s c c', material_trace s c = Some c' -> carries c c'.
Proof.
  intros s c c' H. unfold material_trace in H. destruct (s_mat s); try discriminate.
  - inversion H. unfold carries; auto.
  - destruct (world_normal s (origin (c_ray c))); [|discriminate]. inversion H. unfold carries; auto.
  - destruct (world_normal s (origin (c_ray c))); [|discriminate].
    destruct (index_at (c_wl c)); try discriminate.
    destruct (refract _ _ _ _ _) as [[d m]|]; [|discriminate]. inversion H. unfold carries; auto.
Qed.
Lemma apply_carries : forall s h c x, apply_surface s (h, Some c) = (h, Some x) -> carries c x.
Proof.
  intros s h c x H. unfold apply_surface in H. destruct (fst h); try (inversion H; fail).
  injection H as H. apply material_carries in H. unfold carries in *. cbn in H. auto.
Qed.
Lemma cell_pass_carries : forall lut h c n,
  snd (cell_pass lut (h, Some c)) = Some n -> carries c n.
Proof.
  assert (N : forall lut h n, snd (cell_pass lut (h, None)) = Some n -> False).
  { induction lut as [|e lut IH]; intros h n H; [discriminate|].
    change (cell_pass (e :: lut) (h, None)) with
      (cell_pass lut (if Z.eqb (snd h) (fst e) then apply_surface (snd e) (h, None) else (h, None))) in H.
    destruct (Z.eqb (snd h) (fst e)); apply IH in H; auto. }
  induction lut as [|e lut IH]; intros h c n H.
  - unfold cell_pass in H. simpl in H. inversion H. apply carries_refl.
  - change (cell_pass (e :: lut) (h, Some c)) with
      (cell_pass lut (if Z.eqb (snd h) (fst e) then apply_surface (snd e) (h, Some c) else (h, Some c))) in H.
    destruct (Z.eqb (snd h) (fst e)); [|eauto].
    destruct (apply_surface (snd e) (h, Some c)) as [h' [x|]] eqn:A.
    + assert (h' = h) by (change h' with (hit_of (h', Some x)); rewrite <- A; apply apply_surface_hit). subst h'.
      eapply carries_trans; [eapply apply_carries; eauto|eauto].
    + exfalso. eauto.
Qed.
Lemma make_row_fields : forall c n s w, make_row c n s = Some w ->
  row_gen w = c_gen c /\ row_int w = c_int c /\ row_wl w = c_wl c /\ row_idx w = c_idx c /\ row_id w = c_id c /\
  row_surf w = s /\ row_start w = trim (origin (c_ray c)) /\ row_end w = trim (origin (c_ray n)) /\
  vnormalize (trim (direction (c_ray c))) = Some (row_tilt w).
Proof.
  intros c n s w H. unfold make_row in H. destruct (vnormalize (trim (direction (c_ray c)))) eqn:V; [|discriminate].
  inversion H. cbn. repeat split; auto.
Qed.

Section Runs.
  Variable asort : list xr -> list nat.
  Variable comps : list shape.
  Variable lut : list (Z * surf).
  Notation step_ray := (step_ray asort comps lut).
  Notation step_rows := (step_rows asort comps lut).
  Notation step_next := (step_next asort comps lut).

  Lemma step_go : forall c w n, step_ray c = SGo w n ->
    dead c (propagate asort comps c) = false /\
    snd (cell_of asort comps lut c) = Some n /\ make_row c n (snd (propagate asort comps c)) = Some w.
  Proof.
    intros c w n H. unfold TraceFacts.step_ray in H.
    destruct (dead c (propagate asort comps c)); [discriminate|].
    destruct (snd (cell_of asort comps lut c)) as [m|]; [|discriminate].
    destruct (make_row c m (snd (propagate asort comps c))) eqn:M; [|discriminate]. inversion H; subst; auto.
  Qed.
  Lemma step_carries : forall c w n, step_ray c = SGo w n -> carries c n /\ row_id w = c_id c.
  Proof.
    intros c w n H. destruct (step_go _ _ _ H) as (D & C & M). split.
    - unfold cell_of, start_cell in C. apply cell_pass_carries in C.
      destruct (Z.eqb (snd (propagate asort comps c)) (-1)); auto.
    - apply make_row_fields in M. tauto.
  Qed.

  (** the ray at the start of the next generation *)
  Definition onward (g : nat) (n : col) : col := forward ray_offset_value (with_gen (S g) n).

  Fixpoint ray_rows (k g : nat) (c : col) : list row :=
    match k with
    | O => []
    | S k => match step_ray c with SGo w n => w :: ray_rows k (S g) (onward g n) | _ => [] end
    end.
  Fixpoint batch (k g : nat) (cs : list col) : list row :=
    match k with
    | O => []
    | S k => flat_map step_rows cs ++ batch k (S g) (map (forward ray_offset_value) (flat_map (step_next g) cs))
    end.
  (** no nan in the first [k] generations *)
  Fixpoint nanfree (k g : nat) (c : col) : Prop :=
    match k with
    | O => True
    | S k => match step_ray c with SStop => True | SNan => False | SGo w n => nanfree k (S g) (onward g n) end
    end.
  (** stopped after [k] generations *)
  Fixpoint settled (k g : nat) (c : col) : Prop :=
    match step_ray c with
    | SStop => True
    | SNan => False
    | SGo w n => match k with O => False | S k => settled k (S g) (onward g n) end
    end.

  Lemma flat_map_filter {B} : forall (f : col -> list B) (p : col -> bool) (q : B -> bool) cs,
    (forall c x, In x (f c) -> q x = p c) ->
    filter q (flat_map f cs) = flat_map f (filter p cs).
  Proof.
    intros f p q cs H. induction cs as [|c cs IH]; simpl; auto. rewrite filter_app, IH.
    assert (K : filter q (f c) = if p c then f c else []).
    { assert (K : forall l, (forall x, In x l -> q x = p c) -> filter q l = if p c then l else []).
      { induction l as [|x l I]; intros J; simpl; [destruct (p c); auto|].
        rewrite (J x) by (left; auto). rewrite I by (intros; apply J; right; auto). destruct (p c); auto. }
      apply K. auto. }
    rewrite K. destruct (p c); simpl; auto.
  Qed.
  Lemma onward_list : forall g cs, map (forward ray_offset_value) (flat_map (step_next g) cs) =
    flat_map (fun c => match step_ray c with SGo _ n => [onward g n] | _ => [] end) cs.
  Proof.
    intros g cs. induction cs as [|c cs IH]; simpl; auto. rewrite map_app, IH. f_equal.
    unfold TraceFacts.step_next. destruct (step_ray c); auto.
  Qed.

  Definition has_id (i : nat) (c : col) : bool := Nat.eqb (c_id c) i.
  Lemma batch_of_ray : forall k g i cs,
    filter (has_id i) cs = [] -> rows_with_id i (batch k g cs) = [].
  Proof.
    induction k as [|k IH]; intros g i cs F; simpl; auto. unfold rows_with_id in *. rewrite filter_app.
    rewrite (flat_map_filter _ (has_id i)), F.
    - simpl. apply IH. rewrite onward_list, (flat_map_filter _ (has_id i)), F; auto.
      intros c x X. destruct (step_ray c) eqn:S; try contradiction. destruct X as [<-|[]].
      destruct (step_carries _ _ _ S) as [C _]. unfold has_id. cbn. destruct C as [-> _]. auto.
    - intros c x X. unfold TraceFacts.step_rows in X. destruct (step_ray c) eqn:S; try contradiction.
      destruct X as [<-|[]]. destruct (step_carries _ _ _ S) as [_ ->]. auto.
  Qed.
  Lemma batch_of_one : forall k g i cs c,
    filter (has_id i) cs = [c] -> rows_with_id i (batch k g cs) = ray_rows k g c.
  Proof.
    induction k as [|k IH]; intros g i cs c F; simpl; auto. unfold rows_with_id in *. rewrite filter_app.
    rewrite (flat_map_filter _ (has_id i)), F.
    2:{ intros c' x X. unfold TraceFacts.step_rows in X. destruct (step_ray c') eqn:S; try contradiction.
        destruct X as [<-|[]]. destruct (step_carries _ _ _ S) as [_ ->]. auto. }
    assert (N : filter (has_id i) (map (forward ray_offset_value) (flat_map (step_next g) cs)) =
                match step_ray c with SGo _ n => [onward g n] | _ => [] end).
    { rewrite onward_list, (flat_map_filter _ (has_id i)), F; [simpl; rewrite app_nil_r; auto|].
      intros c' x X. destruct (step_ray c') eqn:S; try contradiction. destruct X as [<-|[]].
      destruct (step_carries _ _ _ S) as [C _]. unfold has_id. cbn. destruct C as [-> _]. auto. }
    simpl. rewrite app_nil_r. unfold TraceFacts.step_rows. destruct (step_ray c) as [| |w n] eqn:S; simpl.
    - apply batch_of_ray; auto.
    - apply batch_of_ray; auto.
    - f_equal. apply IH; auto.
  Qed.

  (** a settled ray leaves no more rows *)
  Lemma settled_rows : forall k g c m, settled k g c -> ray_rows (k + m) g c = ray_rows k g c.
  Proof.
    induction k as [|k IH]; intros g c m H; simpl in *.
    - destruct m; simpl; auto. destruct (step_ray c); auto; contradiction.
    - destruct (step_ray c); auto. f_equal. auto.
  Qed.
End Runs.

(** ** Runs of the state machine *)
Section Machine.
  Variable asort : list xr -> list nat.
  Variable h : heap.
  Variable gen : loc -> nat -> list col.

  Definition run_facts (comps : list shape) (lut : list (Z * surf)) (limit : Z) (g k : nat) (cs : list col) : Prop :=
    (forall c, In c cs -> nanfree asort comps lut k g c) /\
    (forall j, (0 < j < k)%nat -> Z.of_nat (g + j) <> limit) /\
    (((0 < k)%nat /\ Z.of_nat (g + k) = limit) \/
     ((forall c, In c cs -> settled asort comps lut k g c) /\ ((0 < k)%nat -> Z.of_nat (g + k) <> limit))).

  Lemma run_inv : forall fuel t t', t_state t = PROPAGATE -> run_states asort h gen fuel t = TOk t' ->
    exists comps lut k,
      collect (map (shape_of h) (t_comps t)) = Some comps /\
      collect (map (entry_of h) (t_lut t)) = Some lut /\
      f_rows (t_frame t') = f_rows (t_frame t) ++ batch asort comps lut k (t_gen t) (t_rays t) /\
      (f_source_ids (t_frame t) = None -> f_source_ids (t_frame t') = None) /\
      run_facts comps lut (t_limit t) (t_gen t) k (t_rays t) /\
      t_gen t' = (t_gen t + k)%nat /\ t_state t' = IDLE /\ t_complete t' = true /\
      t_sources t' = t_sources t /\ t_comps t' = t_comps t /\ t_n t' = t_n t /\ t_limit t' = t_limit t /\
      t_lut t' = t_lut t.
  Proof.
    induction fuel as [fuel IH] using lt_wf_ind. intros t t' P R.
    destruct fuel as [|fuel]; [simpl in R; rewrite P in R; discriminate|].
    cbn [run_states] in R. rewrite P in R. unfold st_propagate in R.
    destruct (collect (map (shape_of h) (t_comps t))) as [comps|] eqn:C; [|discriminate]. cbn [tbind] in R.
    destruct fuel as [|fuel]; [discriminate|].
    cbn [run_states t_state set_state set_hits] in R. unfold st_interact in R.
    cbn [t_lut t_limit t_gen t_rays t_hits t_frame set_hits set_state] in R.
    destruct (collect (map (entry_of h) (t_lut t))) as [lut|] eqn:L; [|discriminate].
    pose proof (interact_cases asort comps lut (t_limit t) (t_gen t) (t_rays t)) as I.
    destruct (interact lut (t_limit t) (t_gen t) (t_rays t) (map (propagate asort comps) (t_rays t)))
      as [|rows rays g fin| |]; cbn [tbind] in R; try discriminate.
    - destruct fuel as [|fuel]; [discriminate|]. cbn in R.
      assert (Q : t' = set_state IDLE (set_complete true (set_state FINISH (set_state INTERACT
                         (set_hits (map (propagate asort comps) (t_rays t)) t))))).
      { destruct fuel; cbn in R; inversion R; auto. }
      subst t'. cbn. exists comps, lut, O. rewrite Nat.add_0_r, app_nil_r. repeat split; auto; try lia.
      right. split; [|lia]. intros c J. simpl. rewrite (I c J). auto.
    - destruct I as (N & (c0 & J0 & S0) & HR & -> & HF & HN). destruct fin; cbn [tbind] in R.
      + destruct fuel as [|fuel]; [discriminate|]. cbn [run_states t_state set_state] in R. cbn [st_finish tbind] in R.
        assert (Q : t' = set_state IDLE (set_complete true (set_state FINISH (set_gen (S (t_gen t)) (set_rays rays
                      (set_frame (Frame (f_rows (t_frame t) ++ rows) None)
                         (set_state INTERACT (set_hits (map (propagate asort comps) (t_rays t)) t)))))))).
        { unfold st_finish in R. cbn [tbind] in R. destruct fuel; cbn in R; inversion R; auto. }
        subst t'. cbn. exists comps, lut, 1%nat. symmetry in HF. apply Z.eqb_eq in HF.
        simpl. rewrite app_nil_r, HR. 
        repeat (split; [solve [auto | lia]|]). split; [|repeat (split; [solve [auto | lia]|]); auto].
        split; [|split; [intros; lia|left; split; [lia|rewrite <- HF; f_equal; lia]]].
        intros c J. simpl. specialize (N c J). destruct (step_ray asort comps lut c); auto.
      + cbn [run_states] in R.
        match type of R with run_states _ _ _ _ ?t1 = _ => destruct (IH fuel ltac:(lia) t1 t' eq_refl R)
          as (comps' & lut' & k & C' & L' & F & SI & (N' & B & E) & G & ST & CM & SO & CO & TN & LI & LU) end.
        cbn [t_comps t_lut t_rays t_gen t_limit t_frame t_state t_n t_sources f_rows f_source_ids
             set_state set_gen set_rays set_frame set_hits] in *.
        rewrite C in C'. inversion C'; subst comps'. rewrite L in L'. inversion L'; subst lut'.
        symmetry in HF. apply Z.eqb_neq in HF.
        exists comps, lut, (S k). subst rays rows. repeat split; auto.
        * rewrite F, <- app_assoc. reflexivity.
        * intros c J. simpl. specialize (N c J). destruct (step_ray asort comps lut c) as [| |w n] eqn:S; auto.
          apply N'. rewrite onward_list. apply in_flat_map. exists c. split; auto. rewrite S. left; auto.
        * intros j [J1 J2]. destruct (Nat.eq_dec j 1) as [->|J3].
          { rewrite Nat.add_1_r. auto. }
          replace (t_gen t + j)%nat with (S (t_gen t) + (j - 1))%nat by lia. apply B. lia.
        * destruct E as [[K E]|[E1 E2]].
          { left. split; [lia|]. rewrite <- E. f_equal. lia. }
          right. split.
          { intros c J. simpl. specialize (N c J). destruct (step_ray asort comps lut c) as [| |w n] eqn:S; auto.
            apply E1. rewrite onward_list. apply in_flat_map. exists c. split; auto. rewrite S. left; auto. }
          intros _. destruct k as [|k].
          { rewrite Nat.add_1_r. auto. }
          replace (t_gen t + S (S k))%nat with (S (t_gen t) + S k)%nat by lia. apply E2. lia.
        * rewrite G. lia.
  Qed.

  Lemma trace_inv : forall fuel t t', trace asort h gen fuel t = TOk t' ->
    exists comps lut k,
      collect (map (shape_of h) (t_comps t)) = Some comps /\
      collect (map (entry_of h) (t_lut t)) = Some lut /\
      t_sources t <> [] /\
      f_rows (t_frame t') = batch asort comps lut k 0 (renumber 0 (source_rays gen t)) /\
      f_source_ids (t_frame t') = None /\
      run_facts comps lut (t_limit t) 0 k (renumber 0 (source_rays gen t)) /\
      t_gen t' = k /\ t_state t' = IDLE /\ t_complete t' = true /\
      t_sources t' = t_sources t /\ t_comps t' = t_comps t /\ t_n t' = t_n t /\ t_limit t' = t_limit t /\
      t_lut t' = t_lut t.
  Proof.
    intros fuel t t' R. unfold trace in R. destruct fuel as [|fuel]; [discriminate|].
    cbn [run_states t_state set_state] in R. unfold st_initialize in R.
    destruct (t_sources (reset (set_state INITIALIZE t))) as [|s ss] eqn:S; [discriminate|].
    cbn [tbind] in R. rewrite <- S in R. apply run_inv in R; [|reflexivity].
    destruct R as (comps & lut & k & C & L & F & SI & RF & G & ST & CM & SO & CO & TN & LI & LU).
    exists comps, lut, k. cbn in C, L, F, SI, RF, G, SO, CO, TN, LI, LU, S.
    repeat (split; [solve [auto | rewrite S; discriminate]|]). auto.
  Qed.
End Machine.
