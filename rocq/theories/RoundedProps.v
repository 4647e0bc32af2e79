(** * RoundedProps: the bookkeeping of a trace whatever the arithmetic *)
From Coq Require Import List Bool ZArith Lia Sorted.
Import ListNotations.
From Verif Require Import Rounded SpecRounded RoundedFacts.

Section Props.
  Variable K : kernels.
  Local Notation col := (ncol K). Local Notation row := (nrow K). Local Notation cell := (ncell K).

  (** ** Waves *)
  Lemma of_ray_none : forall i (rows : list row), ~ In i (map nr_id rows) -> of_ray i rows = [].
  Proof.
    induction rows as [|w r IH]; simpl; intro H; auto. destruct (Nat.eqb_spec (nr_id w) i); [exfalso; auto|]. apply IH. auto.
  Qed.
  Lemma of_ray_one : forall i (rows : list row), NoDup (map nr_id rows) -> In i (map nr_id rows) -> exists w, of_ray i rows = [w] /\ In w rows.
  Proof.
    induction rows as [|w r IH]; simpl; intros ND I; [contradiction|]. inversion ND as [|? ? N ND']; subst. destruct (Nat.eqb_spec (nr_id w) i) as [E|E].
    - subst i. exists w. split; auto. fold (of_ray (nr_id w) r). rewrite of_ray_none; auto.
    - destruct I as [I|I]; [congruence|]. destruct (IH ND' I) as (w' & E' & I'). exists w'. auto.
  Qed.
  Lemma sorted_nodup : forall ids, StronglySorted lt ids -> NoDup ids.
  Proof. induction 1 as [|x l _ IH F]; constructor; auto. intro I. rewrite Forall_forall in F. specialize (F x I). lia. Qed.
  Lemma waves_ids : forall src g ids rows, waves K src g ids rows -> forall w, In w rows -> In (nr_id w) ids.
  Proof.
    induction 1 as [|g ids b rest _ SUB _ _ IH]; simpl; intros w I; [contradiction|]. apply in_app_or in I. destruct I as [I|I].
    - eapply sub_in; [exact SUB|]. apply in_map. exact I.
    - eapply sub_in; [exact SUB|]. apply IH. exact I.
  Qed.
  Lemma waves_gens : forall src g ids rows, waves K src g ids rows -> StronglySorted lt ids -> forall i, exists k, map nr_gen (of_ray i rows) = seq g k.
  Proof.
    induction 1 as [|g ids b rest _ SUB F W IH]; intros SO i; [exists 0%nat; reflexivity|].
    pose proof (sub_sorted _ _ _ _ SUB SO) as SB. unfold of_ray. rewrite filter_app, map_app. fold (of_ray i b). fold (of_ray i rest).
    destruct (in_dec Nat.eq_dec i (map nr_id b)) as [I|I].
    - destruct (of_ray_one i b (sorted_nodup _ SB) I) as (w & -> & IW). destruct (IH SB i) as (k & ->). exists (S k). simpl. f_equal.
      rewrite Forall_forall in F. apply (F w IW).
    - rewrite (of_ray_none i b I), (of_ray_none i rest). { exists 0%nat. reflexivity. } intro J. apply in_map_iff in J. destruct J as (w & <- & J). apply I. eapply waves_ids; eauto.
  Qed.
  Lemma waves_least : forall src g ids rows, waves K src g ids rows -> forall w, In w rows -> (g <= nr_gen w)%nat.
  Proof.
    induction 1 as [|g ids b rest _ _ F _ IH]; simpl; intros w I; [contradiction|]. apply in_app_or in I. destruct I as [I|I].
    - rewrite Forall_forall in F. destruct (F w I) as (-> & _). lia.
    - specialize (IH w I). lia.
  Qed.
  Lemma sorted_app : forall A (P : A -> A -> Prop) xs ys, StronglySorted P xs -> StronglySorted P ys -> (forall x y, In x xs -> In y ys -> P x y) -> StronglySorted P (xs ++ ys).
  Proof.
    induction xs as [|x xs IH]; simpl; intros ys SX SY H; auto. inversion SX; subst. constructor; [apply IH; auto|]. apply Forall_app. split; auto. apply Forall_forall. auto.
  Qed.
  Lemma waves_order : forall src g ids rows, waves K src g ids rows -> StronglySorted lt ids -> StronglySorted before rows.
  Proof.
    induction 1 as [|g ids b rest _ SUB F W IH]; intro SO; [constructor|]. pose proof (sub_sorted _ _ _ _ SUB SO) as SB.
    apply sorted_app; [|apply IH; exact SB|].
    - clear - F SB. induction b as [|w b IH]; [constructor|]. inversion F as [|? ? (G & _) F']; subst. inversion SB as [|? ? SB' FB]; subst. constructor; [apply IH; auto|].
      apply Forall_forall. intros w' I. right. rewrite Forall_forall in F', FB. split; [symmetry; apply (F' w' I)|]. apply FB. apply in_map. exact I.
    - intros w w' I I'. left. rewrite Forall_forall in F. destruct (F w I) as (-> & _). pose proof (waves_least _ _ _ _ W w' I'). lia.
  Qed.
  Lemma waves_source : forall src g ids rows, waves K src g ids rows -> Forall (fun w => nr_surf w <> (-1)%Z /\ from_source K src w) rows.
  Proof. induction 1 as [|g ids b rest _ _ F _ IH]; [constructor|]. apply Forall_app. split; auto. eapply Forall_impl; [|exact F]. simpl. tauto. Qed.

  (** ** Numbering *)
  Lemma number_ids : forall rays : list col, map n_id (n_number K rays) = seq 0 (length rays).
  Proof.
    intro rays. unfold n_number. rewrite map_map. simpl. generalize 0%nat. induction rays as [|c r IH]; intro k; simpl; auto. f_equal. apply IH.
  Qed.
  Lemma seq_sorted : forall n k, StronglySorted lt (seq k n).
  Proof. induction n as [|n IH]; intro k; simpl; constructor; auto. apply Forall_forall. intros i I. apply in_seq in I. lia. Qed.
  Lemma number_nth : forall (rays : list col) k i c, nth_error rays i = Some c ->
    nth_error (map (fun q : nat * col => set_id K (fst q) (snd q)) (combine (seq k (length rays)) rays)) i = Some (set_id K (k + i) c).
  Proof.
    induction rays as [|c0 r IH]; intros k [|i] c E; simpl in *; try discriminate.
    - injection E as ->. rewrite Nat.add_0_r. reflexivity.
    - rewrite (IH (S k) i c E). do 2 f_equal. lia.
  Qed.
  Lemma number_at : forall rays, Forall (fun c : col => n_gen c = 0%nat) rays -> at_gen K rays 0 (n_number K rays).
  Proof.
    intros rays F. unfold at_gen. apply Forall_forall. intros c I. apply In_nth_error in I. destruct I as (i & E).
    assert (L : (i < length rays)%nat).
    { assert (X : nth_error (n_number K rays) i <> None) by congruence. apply nth_error_Some in X. rewrite <- (map_length n_id), number_ids, seq_length in X. exact X. }
    destruct (nth_error rays i) as [c0|] eqn:E0; [|apply nth_error_None in E0; lia]. pose proof (number_nth rays 0 i c0 E0) as N. unfold n_number in E. rewrite N in E. injection E as <-.
    simpl. split; [rewrite Forall_forall in F; apply F; eapply nth_error_In; eauto|]. exists c0. auto.
  Qed.

  Theorem trace_ends : forall fuel table limit rays, (1 <= limit)%Z -> (Z.to_nat limit <= fuel)%nat -> n_trace K fuel table limit rays <> Running.
  Proof. intros. apply loop_ends; simpl; lia. Qed.
  Theorem trace_fuel : forall fuel fuel' table limit rays, (fuel <= fuel')%nat -> n_trace K fuel table limit rays <> Running ->
    n_trace K fuel' table limit rays = n_trace K fuel table limit rays.
  Proof. intros. apply loop_fuel; auto. Qed.

  Lemma sum_bound : forall (rows : list row) n limit, (forall w, In w rows -> (nr_id w < n)%nat) -> 
    (forall i, (length (of_ray i rows) <= limit)%nat) -> (length rows <= limit * n)%nat.
  Proof.
    intros rows n. revert rows. induction n as [|n IH]; intros rows limit B L.
    - destruct rows as [|w r]; [simpl; lia|]. specialize (B w (or_introl eq_refl)). lia.
    - assert (E : length rows = (length (of_ray n rows) + length (filter (fun w => negb (Nat.eqb (nr_id w) n)) rows))%nat).
      { unfold of_ray. clear. induction rows as [|w r IHr]; simpl; auto. destruct (Nat.eqb (nr_id w) n); simpl; lia. }
      assert (H : (length (filter (fun w => negb (Nat.eqb (nr_id w) n)) rows) <= limit * n)%nat).
      { apply IH.
        - intros w I. apply filter_In in I. destruct I as [I J]. specialize (B w I). destruct (Nat.eqb_spec (nr_id w) n); [discriminate|lia].
        - intro i. etransitivity; [|exact (L i)]. unfold of_ray. clear. induction rows as [|w r IHr]; simpl; auto.
          destruct (Nat.eqb (nr_id w) n); simpl; destruct (Nat.eqb (nr_id w) i); simpl; lia. }
      specialize (L n). lia.
  Qed.

  Theorem trace_well_formed : forall fuel table limit rays rows, Forall (fun c : col => n_gen c = 0%nat) rays -> (1 <= limit)%Z ->
    n_trace K fuel table limit rays = Finished rows ->
    (forall i, exists k, (Z.of_nat k <= limit)%Z /\ map nr_gen (of_ray i rows) = seq 0 k) /\
    StronglySorted before rows /\ (Z.of_nat (length rows) <= limit * Z.of_nat (length rays))%Z /\
    forall w, In w rows -> nr_surf w <> (-1)%Z /\ exists c, nth_error rays (nr_id w) = Some c /\ nr_wl w = n_wl c /\ nr_int w = n_int c.
  Proof.
    intros fuel table limit rays rows F L E. pose proof (number_at rays F) as A. unfold n_trace in E.
    destruct (loop_waves K rays _ _ _ _ _ _ _ A E) as (new & X & W). simpl in X. subst new.
    assert (L0 : (Z.of_nat 0 < limit)%Z) by (simpl; lia).
    destruct (loop_limit K rays _ _ _ _ _ _ _ A L0 E) as (new & X & LM). simpl in X. subst new.
    rewrite number_ids in W. pose proof (seq_sorted (length rays) 0) as SO.
    assert (G : forall i, exists k, (Z.of_nat k <= limit)%Z /\ map nr_gen (of_ray i rows) = seq 0 k).
    { intro i. destruct (waves_gens _ _ _ _ W SO i) as (k & G). exists k. split; auto. destruct k as [|k]; [lia|].
      assert (I : In k (map nr_gen (of_ray i rows))) by (rewrite G; apply in_seq; lia). apply in_map_iff in I. destruct I as (w & GW & I). apply filter_In in I.
      rewrite Forall_forall in LM. specialize (LM w (proj1 I)). lia. }
    split; [exact G|]. split; [eapply waves_order; eauto|]. split.
    - assert (H : (length rows <= Z.to_nat limit * length rays)%nat); [|rewrite <- (Z2Nat.id limit) by lia; rewrite <- Nat2Z.inj_mul; lia]. apply sum_bound.
      + intros w I. pose proof (waves_ids _ _ _ _ W w I) as J. apply in_seq in J. lia.
      + intro i. destruct (G i) as (k & KL & GK). rewrite <- (map_length nr_gen), GK, seq_length. lia.
    - intros w I. pose proof (waves_source _ _ _ _ W) as S. rewrite Forall_forall in S. destruct (S w I) as (H & c & N & I1 & I2). split; auto. exists c. auto.
  Qed.

  Theorem trace_cut : forall fuel table limit limit' rays rows, Forall (fun c : col => n_gen c = 0%nat) rays -> (1 <= limit' <= limit)%Z ->
    n_trace K fuel table limit rays = Finished rows ->
    n_trace K fuel table limit' rays = Finished (filter (fun w => Z.ltb (Z.of_nat (nr_gen w)) limit') rows).
  Proof.
    intros fuel table limit limit' rays rows F L E. eapply (loop_cut K rays); [exact (number_at rays F)| | | |exact E]; try (simpl; lia). constructor.
  Qed.

  (** ** The intensity has no influence *)
  Definition alike_cells (x y : cell) : Prop := fst x = fst y /\ alike_rays (snd x) (snd y).
  Lemma alike_beams : forall rays rays' : list col, Forall2 alike_rays rays rays' -> map n_beam rays = map n_beam rays'.
  Proof. intros. eapply forall2_map_eq; [|eassumption]. intros x y H'. apply H'. Qed.
  Lemma alike_masked : forall z cells cells', Forall2 alike_cells cells cells' ->
    Forall2 alike_cells (filter (fun x : cell => Z.eqb (snd (fst x)) z) cells) (filter (fun x : cell => Z.eqb (snd (fst x)) z) cells').
  Proof. induction 1 as [|x y xs ys [E A] _ IH]; simpl; [constructor|]. rewrite E. destruct (Z.eqb _ _); auto. constructor; auto. split; auto. Qed.
  Lemma alike_write : forall z f cells cells', Forall2 alike_cells cells cells' -> forall j,
    Forall2 alike_cells (n_write K (fun x : cell => Z.eqb (snd (fst x)) z) f j cells) (n_write K (fun x : cell => Z.eqb (snd (fst x)) z) f j cells').
  Proof.
    induction 1 as [|x y xs ys [E A] _ IH]; intro j; simpl; [constructor|]. rewrite E. destruct (Z.eqb _ _); constructor; auto.
    - split; auto. destruct A as (A1 & A2 & A3 & A4 & A5). repeat split; simpl; auto.
    - split; auto.
  Qed.
  Lemma alike_exists : forall z cells cells', Forall2 alike_cells cells cells' ->
    existsb (fun x : cell => Z.eqb (snd (fst x)) z) cells = existsb (fun x : cell => Z.eqb (snd (fst x)) z) cells'.
  Proof. induction 1 as [|x y xs ys [E A] _ IH]; simpl; auto. rewrite E, IH. reflexivity. Qed.
  Definition alike_opt (a b : option (list cell)) : Prop := match a, b with Some x, Some y => Forall2 alike_cells x y | None, None => True | _, _ => False end.
  Lemma alike_surface : forall e cells cells', Forall2 alike_cells cells cells' -> alike_opt (n_surface K e cells) (n_surface K e cells').
  Proof.
    intros e cells cells' H. unfold n_surface. cbv zeta. rewrite (alike_exists _ _ _ H). destruct (existsb _ cells'); [|exact H].
    pose proof (alike_masked (fst e) _ _ H) as M.
    assert (LM := forall2_length _ _ _ _ _ M).
    assert (E1 : map (fun x : cell => (fst (fst x), n_beam (snd x))) (filter (fun x : cell => Z.eqb (snd (fst x)) (fst e)) cells) = map (fun x : cell => (fst (fst x), n_beam (snd x))) (filter (fun x : cell => Z.eqb (snd (fst x)) (fst e)) cells')).
    { eapply forall2_map_eq; [|exact M]. intros x y (E & A & _). rewrite E, A. reflexivity. }
    rewrite E1, LM. set (moved := entries _ _).
    assert (E2 : map (fun q : beam K * cell => (fst q, n_wl (snd (snd q)), n_idx (snd (snd q)))) (combine moved (filter (fun x : cell => Z.eqb (snd (fst x)) (fst e)) cells)) =
                 map (fun q : beam K * cell => (fst q, n_wl (snd (snd q)), n_idx (snd (snd q)))) (combine moved (filter (fun x : cell => Z.eqb (snd (fst x)) (fst e)) cells'))).
    { generalize moved. clear - M. intro moved. revert moved. induction M as [|x y xs ys (E & _ & _ & A & B & _) _ IH]; intros [|b bs]; simpl; auto. rewrite A, B, IH. reflexivity. }
    rewrite E2. destruct (k_trace K _ _); simpl; auto. apply alike_write. exact H.
  Qed.
  Lemma alike_surfaces : forall table cells cells', Forall2 alike_cells cells cells' -> alike_opt (n_surfaces K table cells) (n_surfaces K table cells').
  Proof.
    induction table as [|e r IH]; intros cells cells' H; simpl; auto. pose proof (alike_surface e _ _ H) as A.
    destruct (n_surface K e cells), (n_surface K e cells'); simpl in A; try contradiction; auto.
  Qed.
  Lemma alike_copy : forall hits rays rays', Forall2 alike_rays rays rays' ->
    Forall2 alike_cells (map (fun q => n_copy K (fst q) (snd q)) (combine hits rays)) (map (fun q => n_copy K (fst q) (snd q)) (combine hits rays')).
  Proof.
    intros hits rays rays' H. revert hits. induction H as [|c c' rs rs' A _ IH]; intros [|h hits]; simpl; constructor; auto.
    split; simpl; auto. destruct A as (A1 & A2 & A3 & A4 & A5). destruct (Z.eqb _ _); repeat split; simpl; congruence.
  Qed.
  Lemma alike_dead : forall rays rays' cells cells', Forall2 alike_rays rays rays' -> Forall2 alike_cells cells cells' -> n_dead K rays cells = n_dead K rays' cells'.
  Proof.
    intros rays rays' cells cells' H H'. unfold n_dead. rewrite (alike_beams _ _ H), (forall2_length _ _ _ _ _ H). generalize (entries (length rays') (k_absorbed K (map n_beam rays'))).
    revert cells cells' H'. induction H as [|c c' rs rs' A _ IH]; intros cells cells' H' [|b bs]; simpl; auto. destruct H' as [|x y xs ys [E _] H']; simpl; auto. rewrite E. f_equal. apply IH. exact H'.
  Qed.
  Lemma alike_insert : forall rays rays' cells cells', Forall2 alike_rays rays rays' -> Forall2 alike_cells cells cells' -> Forall2 alike_rows (n_insert K rays cells) (n_insert K rays' cells').
  Proof.
    intros rays rays' cells cells' H H'. unfold n_insert. rewrite (alike_beams _ _ H), (forall2_length _ _ _ _ _ H). generalize (entries (length rays') (k_tilt K (map n_beam rays'))).
    revert cells cells' H'. induction H as [|c c' rs rs' A _ IH]; intros cells cells' H' [|b bs]; simpl; try constructor. destruct H' as [|[h x] [h' y] xs ys [E (B & _)] H']; simpl; constructor; [|apply IH; exact H'].
    simpl in E. subst h'. destruct A as (A1 & A2 & A3 & A4 & A5). cbn in B. repeat split; simpl; congruence.
  Qed.
  Lemma alike_next : forall g cells cells', Forall2 alike_cells cells cells' ->
    Forall2 alike_rays (n_offset K (map (set_generation K g) (map snd cells))) (n_offset K (map (set_generation K g) (map snd cells'))).
  Proof.
    intros g cells cells' H. assert (R : Forall2 alike_rays (map (set_generation K g) (map snd cells)) (map (set_generation K g) (map snd cells'))).
    { induction H as [|x y xs ys [_ (A1 & A2 & A3 & A4 & A5)] _ IH]; simpl; constructor; auto. repeat split; simpl; auto. }
    unfold n_offset. rewrite (alike_beams _ _ R), (forall2_length _ _ _ _ _ R). generalize (entries (length (map (set_generation K g) (map snd cells'))) (k_offset K (map n_beam (map (set_generation K g) (map snd cells'))))).
    induction R as [|c c' rs rs' (A1 & A2 & A3 & A4 & A5) _ IH]; intros [|b bs]; simpl; constructor; auto. repeat split; simpl; auto.
  Qed.
  Lemma alike_loop : forall table limit fuel g rays rays' rows rows', Forall2 alike_rays rays rays' -> Forall2 alike_rows rows rows' ->
    alike (n_loop K fuel table limit g rays rows) (n_loop K fuel table limit g rays' rows').
  Proof.
    induction fuel as [|fuel IH]; intros g rays rays' rows rows' R W; cbn [n_loop]; [exact Logic.I|]. cbv zeta.
    assert (EH : n_hits K rays = n_hits K rays') by (unfold n_hits; rewrite (alike_beams _ _ R), (forall2_length _ _ _ _ _ R); reflexivity). rewrite EH.
    pose proof (alike_surfaces table _ _ (alike_copy (n_hits K rays') _ _ R)) as A.
    destruct (n_surfaces K table _) as [cells|], (n_surfaces K table _) as [cells'|]; simpl in A; try contradiction; [|exact Logic.I].
    rewrite (alike_dead _ _ _ _ R A). set (m := n_dead K rays' cells'). destruct (forallb _ m); [exact W|].
    pose proof (select_forall2 _ _ _ (map negb m) _ _ A) as A'. pose proof (select_forall2 _ _ _ (map negb m) _ _ R) as R'.
    assert (W' : Forall2 alike_rows (rows ++ n_insert K (select (map negb m) rays) (select (map negb m) cells)) (rows' ++ n_insert K (select (map negb m) rays') (select (map negb m) cells'))).
    { apply Forall2_app; auto. apply alike_insert; auto. }
    destruct (Z.eqb _ limit); [exact W'|]. apply IH; auto. apply alike_next. exact A'.
  Qed.
  Theorem intensity_irrelevant : forall fuel table limit rays rays', Forall2 alike_rays rays rays' -> alike (n_trace K fuel table limit rays) (n_trace K fuel table limit rays').
  Proof.
    intros fuel table limit rays rays' H. apply alike_loop; [|constructor]. unfold n_number. rewrite (forall2_length _ _ _ _ _ H). generalize (seq 0 (length rays')).
    induction H as [|c c' rs rs' (A1 & A2 & A3 & A4 & A5) _ IH]; intros [|i ids]; simpl; constructor; auto. repeat split; simpl; auto.
  Qed.
End Props.
