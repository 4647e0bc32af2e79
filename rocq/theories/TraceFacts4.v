(** * TraceFacts4: the rows of a ray are the history of that ray *)
From Coq Require Import Reals List Bool ZArith Lia Lra Psatz.
Import ListNotations.
From Verif Require Import XR Arr Lin LinFacts Ops Prim Csg Surf World SpecWorld SpecOptics Tracer SpecTrace
  XRFacts CsgProps SpecTree TreeFacts TraceFacts TraceFacts2 TraceFacts3.
Open Scope R_scope.

Lemma cell_pass_skip : forall lut x, ~ In (snd (hit_of x)) (map fst lut) -> cell_pass lut x = x.
Proof.
  induction lut as [|e lut IH]; intros x N; [reflexivity|].
  change (cell_pass (e :: lut) x) with
    (cell_pass lut (if Z.eqb (snd (hit_of x)) (fst e) then apply_surface (snd e) x else x)).
  destruct (Z.eqb (snd (hit_of x)) (fst e)) eqn:E.
  - apply Z.eqb_eq in E. elim N. left; auto.
  - apply IH. intros I. apply N. right; auto.
Qed.
Lemma cell_pass_once : forall lut x s,
  NoDup (map fst lut) -> In (snd (hit_of x), s) lut -> cell_pass lut x = apply_surface s x.
Proof.
  induction lut as [|e lut IH]; intros x s N I; [contradiction|].
  simpl in N. inversion N as [|? ? N1 N2]; subst.
  change (cell_pass (e :: lut) x) with
    (cell_pass lut (if Z.eqb (snd (hit_of x)) (fst e) then apply_surface (snd e) x else x)).
  destruct I as [->|I].
  - cbn [fst snd]. rewrite Z.eqb_refl. apply cell_pass_skip. rewrite apply_surface_hit. auto.
  - destruct (Z.eqb (snd (hit_of x)) (fst e)) eqn:E.
    + apply Z.eqb_eq in E. elim N1. rewrite <- E. apply in_map_iff. eexists; split; [|eauto]; auto.
    + eauto.
Qed.

Lemma stopped_absorbed : forall c, absorbed c = true <-> stopped c.
Proof.
  intros c. unfold absorbed, stopped. rewrite isclose0_true. unfold vnorm.
  rewrite Rabs_right; [tauto|]. apply Rle_ge, sqrt_pos.
Qed.

Definition table (surfaces : list surf) : list (Z * surf) := map (fun s => (s_id s, s)) surfaces.
Lemma table_keys : forall ss, map fst (table ss) = map s_id ss.
Proof. intros. unfold table. rewrite map_map. apply map_ext. auto. Qed.
Lemma in_table : forall ss s, In s ss -> In (s_id s, s) (table ss).
Proof. intros. unfold table. apply in_map_iff. eauto. Qed.

Section History.
  Variable asort : list xr -> list nat.
  Hypothesis AS : argsort_ok asort.
  Variable comps : list shape.
  Notation surfaces := (flat_map surface_ids comps).
  Hypothesis IDS : forall s, In s surfaces -> (0 <= s_id s)%Z.
  Hypothesis ND : NoDup (map s_id surfaces).
  Notation lut := (table surfaces).

  Lemma step_stop_spec : forall c, step_ray asort comps lut c = SStop ->
    stopped c \/ no_hit asort comps (c_ray c).
  Proof.
    intros c H. unfold step_ray in H. destruct (dead c (propagate asort comps c)) eqn:D.
    - unfold dead, logical_or_out in D. apply orb_true_iff in D. destruct D as [D|D].
      + left. apply stopped_absorbed; auto.
      + right. destruct (propagate_first asort AS comps c) as [[_ N]|(t & sid & P & F)]; auto.
        rewrite P in D. cbn [snd] in D. apply Z.eqb_eq in D.
        destruct (first_hit_surface asort AS _ _ _ _ F) as (s & f & S & I & E & _).
        assert (0 <= s_id f)%Z by (apply IDS; apply in_flat_map; eauto). lia.
    - destruct (snd (cell_of asort comps lut c)); [|discriminate].
      destruct (make_row c c0 (snd (propagate asort comps c))); discriminate.
  Qed.

  Lemma step_hit : forall c, step_ray asort comps lut c <> SStop ->
    ~ stopped c /\
    exists t sid s, propagate asort comps c = (Fin t, sid) /\ first_hit asort comps (c_ray c) t sid /\
      In s surfaces /\ s_id s = sid /\ In (Fin t) (surf_hits s (c_ray c)) /\
      snd (cell_of asort comps lut c) = material_trace s (forward t c).
  Proof.
    intros c G. unfold step_ray in G.
    destruct (dead c (propagate asort comps c)) eqn:D; [congruence|]. clear G.
    unfold dead, logical_or_out in D. apply orb_false_iff in D. destruct D as [D1 D2]. split.
    { intros S. apply stopped_absorbed in S. congruence. }
    destruct (propagate_first asort AS comps c) as [[P N]|(t & sid & P & F)].
    { rewrite P in D2. discriminate. }
    destruct (first_hit_surface asort AS _ _ _ _ F) as (sh & f & S & I & E & H).
    assert (IF : In f surfaces) by (apply in_flat_map; eauto).
    exists t, sid, f. repeat split; auto. unfold cell_of, start_cell. rewrite D2, P.
    rewrite (cell_pass_once _ _ f).
    - reflexivity.
    - rewrite table_keys. auto.
    - cbn [hit_of fst snd]. rewrite <- E. apply in_table; auto.
  Qed.

  Lemma step_go_spec : forall c w n, step_ray asort comps lut c = SGo w n ->
    ~ stopped c /\
    exists t sid s, first_hit asort comps (c_ray c) t sid /\ In s surfaces /\ s_id s = sid /\
      In (Fin t) (surf_hits s (c_ray c)) /\
      material_trace s (forward t c) = Some n /\
      w = Row (c_gen c) (c_int c) (c_wl c) (c_idx c) (c_id c) sid
           (trim (origin (c_ray c))) (trim (origin (c_ray n))) (hat (trim (direction (c_ray c)))).
  Proof.
    intros c w n G. destruct (step_go _ _ _ _ _ _ G) as (D & C & M).
    destruct (step_hit c) as (NS & t & sid & s & P & F & I & E & H & K); [congruence|].
    split; auto. exists t, sid, s. rewrite P in M. cbn [snd] in M. repeat split; auto; [congruence|].
    unfold make_row in M. destruct (vnormalize (trim (direction (c_ray c)))) as [v|] eqn:V; [|discriminate].
    inversion M. unfold vnormalize in V. destruct (Req_EM_T _ 0); [discriminate|]. inversion V. reflexivity.
  Qed.

  Lemma ray_history : forall limit k g c,
    nanfree asort comps lut k g c ->
    (forall j, (j < k)%nat -> (0 < g + j)%nat -> Z.of_nat (g + j) <> limit) ->
    ((0 < g + k)%nat /\ Z.of_nat (g + k) = limit) \/ settled asort comps lut k g c ->
    history asort comps surfaces limit g c (ray_rows asort comps lut k g c).
  Proof.
    intros limit. induction k as [|k IH]; intros g c N B E.
    - simpl. rewrite Nat.add_0_r in E. destruct E as [[E1 E2]|E].
      + apply History_limit; auto.
      + apply History_stopped. apply step_stop_spec. simpl in E.
        destruct (step_ray asort comps lut c); auto; contradiction.
    - simpl in *. destruct (step_ray asort comps lut c) as [| |w n] eqn:SR.
      + apply History_stopped. apply step_stop_spec; auto.
      + contradiction.
      + destruct (step_go_spec _ _ _ SR) as (NS & t & sid & s & F & I & ID & H & M & ->).
        eapply History_hit; eauto.
        * destruct g; auto. right. replace (S g) with (S g + 0)%nat by lia. apply B; lia.
        * apply IH; auto.
          { intros j J P. replace (S g + j)%nat with (g + S j)%nat by lia. apply B; lia. }
          destruct E as [[E1 E2]|E]; auto. left. split; [lia|]. rewrite <- E2. f_equal. lia.
  Qed.
End History.

Lemma depth_S : forall h, exists n, depth h = S n.
Proof. intros. unfold depth. eauto. Qed.
Lemma shape_lut : forall h n l sh, shape_fuel n h l = Some sh ->
  exists ll, lut_fuel n h l = Some ll /\ map (entry_of h) ll = map (fun s => Some (s_id s, s)) (surface_ids sh) /\
    (forall s, In s (surface_ids sh) -> (0 <= s_id s)%Z) /\
    map fst ll = map s_id (surface_ids sh).
Proof.
  intros h. induction n as [|n IH]; intros l sh H; [discriminate|]. cbn [shape_fuel lut_fuel] in *.
  destruct (get h l) as [o|] eqn:G; [|discriminate]. destruct (o_kind o) as [|p m|op a b|ms] eqn:K; try discriminate.
  - inversion H; subst. clear H. eexists; split; [reflexivity|]. cbn [surface_ids map].
    split; [|split].
    + unfold entry_of, surf_of. cbn [fst snd]. unfold shape_of. destruct (depth_S h) as [m' ->]. cbn [shape_fuel].
      rewrite G, K. reflexivity.
    + intros s [<-|[]]. cbn. lia.
    + reflexivity.
  - destruct (shape_fuel n h a) as [sa|] eqn:A; [|discriminate].
    destruct (shape_fuel n h b) as [sb|] eqn:B; [|discriminate]. inversion H; subst. clear H.
    destruct (IH _ _ A) as (la & -> & MA & PA & KA). destruct (IH _ _ B) as (lb & -> & MB & PB & KB).
    eexists; split; [reflexivity|]. cbn [surface_ids]. rewrite !map_app, MA, MB, KA, KB. repeat split; auto.
    intros s I. apply in_app_iff in I. destruct I; auto.
Qed.

Lemma table_entries : forall h comps ls luts,
  collect (map (shape_of h) ls) = Some comps -> collect (map (lut_of h) ls) = Some luts ->
  collect (map (entry_of h) (concat luts)) = Some (table (flat_map surface_ids comps)) /\
  map fst (concat luts) = map s_id (flat_map surface_ids comps) /\
  (forall s, In s (flat_map surface_ids comps) -> (0 <= s_id s)%Z).
Proof.
  intros h comps ls luts C L.
  assert (K : map (entry_of h) (concat luts) = map (fun s => Some (s_id s, s)) (flat_map surface_ids comps) /\
    (forall s, In s (flat_map surface_ids comps) -> (0 <= s_id s)%Z) /\
    map fst (concat luts) = map s_id (flat_map surface_ids comps)).
  { apply collect_some in C. apply collect_some in L. revert comps luts C L.
    induction ls as [|l ls IH]; intros comps luts C L.
    - destruct comps; [|discriminate]. destruct luts; [|discriminate]. simpl. repeat split; auto. contradiction.
    - destruct comps as [|sh comps]; [discriminate|]. destruct luts as [|lu luts]; [discriminate|].
      simpl in C, L. inversion C as [[C1 C2]]. inversion L as [[L1 L2]].
      destruct (IH _ _ C2 L2) as (A & B & D). destruct (shape_lut _ _ _ _ C1) as (l' & E & MA & PA & KA).
      assert (l' = lu) by (unfold lut_of in L1; congruence). subst l'. simpl. rewrite !map_app, MA, A, KA, D.
      rewrite ?map_app. repeat split; auto. intros s I. apply in_app_iff in I. destruct I; auto. }
  destruct K as (A & B & D). repeat split; auto. rewrite A.
  rewrite <- (map_map (fun s => (s_id s, s)) Some). apply collect_map_some.
Qed.
Lemma table_resolves : forall h comps ls luts ll,
  collect (map (shape_of h) ls) = Some comps -> collect (map (lut_of h) ls) = Some luts ->
  collect (map (entry_of h) (concat luts)) = Some ll ->
  ll = table (flat_map surface_ids comps) /\
  map fst (concat luts) = map s_id (flat_map surface_ids comps) /\
  (forall s, In s (flat_map surface_ids comps) -> (0 <= s_id s)%Z).
Proof.
  intros h comps ls luts ll C L E. destruct (table_entries _ _ _ _ C L) as (A & B & D). split; auto. congruence.
Qed.

Lemma renumber_ids : forall cs j i c, nth_error cs i = Some c ->
  filter (has_id (j + i)) (renumber j cs) = [with_id (j + i) c].
Proof.
  assert (N : forall cs j i, (i < j)%nat -> filter (has_id i) (renumber j cs) = []).
  { induction cs as [|c cs IH]; intros j i L; simpl; auto. unfold has_id at 1. simpl.
    destruct (Nat.eqb_spec j i); [lia|]. apply IH. lia. }
  induction cs as [|c0 cs IH]; intros j i c H; [destruct i; discriminate|]. destruct i as [|i]; simpl in *.
  - inversion H; subst. unfold has_id at 1. simpl. rewrite Nat.add_0_r, Nat.eqb_refl. f_equal. apply N. lia.
  - unfold has_id at 1. simpl. destruct (Nat.eqb_spec j (j + S i)); [lia|].
    replace (j + S i)%nat with (S j + i)%nat by lia. apply IH; auto.
Qed.
Lemma renumber_in : forall cs j c, In c (renumber j cs) ->
  exists i c0, nth_error cs i = Some c0 /\ c = with_id (j + i) c0.
Proof.
  induction cs as [|c0 cs IH]; intros j c H; simpl in H; [contradiction|]. destruct H as [<-|H].
  - exists O, c0. rewrite Nat.add_0_r. auto.
  - destruct (IH _ _ H) as (i & c1 & N & ->). exists (S i), c1. split; auto. f_equal. lia.
Qed.
Lemma renumber_length : forall cs j, length (renumber j cs) = length cs.
Proof. induction cs; simpl; auto. Qed.
Lemma renumber_nth : forall cs j i c, nth_error cs i = Some c -> nth_error (renumber j cs) i = Some (with_id (j + i) c).
Proof.
  induction cs as [|c0 cs IH]; intros j [|i] c H; simpl in *; try discriminate.
  - inversion H. rewrite Nat.add_0_r. auto.
  - rewrite (IH (S j) i c H). do 2 f_equal. lia.
Qed.

Lemma batch_ids : forall asort comps lut k g cs w, In w (batch asort comps lut k g cs) ->
  exists c, In c cs /\ row_id w = c_id c.
Proof.
  intros asort comps lut. induction k as [|k IH]; intros g cs w H; simpl in H; [contradiction|].
  apply in_app_iff in H. destruct H as [H|H].
  - apply in_flat_map in H. destruct H as (c & C & H). exists c. split; auto. unfold step_rows in H.
    destruct (step_ray asort comps lut c) eqn:S; try contradiction. destruct H as [<-|[]].
    apply (step_carries _ _ _ _ _ _ S).
  - destruct (IH _ _ _ H) as (c' & C & E). rewrite onward_list in C. apply in_flat_map in C.
    destruct C as (c & C & D). exists c. split; auto.
    destruct (step_ray asort comps lut c) eqn:S; try contradiction. destruct D as [<-|[]].
    destruct (step_carries _ _ _ _ _ _ S) as [(I & _) _]. rewrite E. cbn. auto.
Qed.

Theorem trace_histories : forall asort, argsort_ok asort ->
  forall h gen fuel t t', trace asort h gen fuel t = TOk t' ->
  table_current h t -> NoDup (map fst (t_lut t)) ->
  exists comps, map (shape_of h) (t_comps t) = map Some comps /\
    (forall i c, nth_error (source_rays gen t) i = Some c ->
       history asort comps (flat_map surface_ids comps) (t_limit t) 0 (with_id i c)
         (rows_with_id i (f_rows (get_results t')))) /\
    (forall w, In w (f_rows (get_results t')) -> (row_id w < length (source_rays gen t))%nat).
Proof.
  intros asort AS h gen fuel t t' T (luts & CL & TL) ND.
  destruct (trace_inv _ _ _ _ _ _ T) as (comps & lut & k & C & L & SN & F & _ & (NF & B & E) & _).
  exists comps. split; [apply collect_some; auto|]. rewrite TL in L, ND.
  destruct (table_resolves _ _ _ _ _ C CL L) as (-> & KE & POS). rewrite KE in ND.
  unfold get_results. rewrite F. split.
  - intros i c I. pose proof (renumber_ids _ 0 i c I) as FI. simpl in FI.
    rewrite (batch_of_one asort comps _ k 0 i _ _ FI).
    assert (IN : In (with_id i c) (renumber 0 (source_rays gen t))).
    { eapply nth_error_In. apply (renumber_nth _ 0 i c I). }
    apply (ray_history asort AS comps POS ND (t_limit t) k 0); [exact (NF _ IN)| |].
    + intros j J P. simpl in *. apply B. lia.
    + simpl. destruct E as [E|[E _]]; auto.
  - intros w W. destruct (batch_ids _ _ _ _ _ _ _ W) as (c & I & ->).
    destruct (renumber_in _ _ _ I) as (i & c0 & N & ->). cbn. apply nth_error_Some. congruence.
Qed.
