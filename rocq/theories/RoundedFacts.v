(** * RoundedFacts: what one generation of the tracer does whatever the arithmetic *)
From Coq Require Import List Bool ZArith Lia Sorted.
Import ListNotations.
From Verif Require Import Rounded SpecRounded.


Lemma entries_length : forall A n (f : nat -> A), length (entries n f) = n.
Proof. intros. unfold entries. rewrite map_length, seq_length. reflexivity. Qed.
Lemma entries_nth : forall A n (f : nat -> A) i, (i < n)%nat -> nth_error (entries n f) i = Some (f i).
Proof. intros A n f i L. unfold entries. rewrite nth_error_map. rewrite (nth_error_nth' (seq 0 n) 0%nat) by (rewrite seq_length; exact L). rewrite seq_nth by exact L. reflexivity. Qed.
Lemma combine_snd : forall A B (xs : list A) (ys : list B), length xs = length ys -> map snd (combine xs ys) = ys.
Proof. induction xs as [|x xs IH]; intros [|y ys] L; try discriminate; simpl; auto. rewrite IH; auto. Qed.
Lemma combine_fst : forall A B (xs : list A) (ys : list B), length xs = length ys -> map fst (combine xs ys) = xs.
Proof. induction xs as [|x xs IH]; intros [|y ys] L; try discriminate; simpl; auto. rewrite IH; auto. Qed.
Lemma combine_len : forall A B (xs : list A) (ys : list B), length xs = length ys -> length (combine xs ys) = length ys.
Proof. intros. rewrite combine_length. lia. Qed.

(** Sublists *)
Inductive sub {A : Type} : list A -> list A -> Prop :=
| Sub_nil : sub [] []
| Sub_skip : forall x xs ys, sub xs ys -> sub xs (x :: ys)
| Sub_take : forall x xs ys, sub xs ys -> sub (x :: xs) (x :: ys).
Lemma sub_nil_l : forall A (ys : list A), sub [] ys.
Proof. induction ys; [apply Sub_nil|apply Sub_skip]; auto. Qed.
Lemma sub_in : forall A (xs ys : list A), sub xs ys -> forall x, In x xs -> In x ys.
Proof. induction 1; simpl; intros; intuition. Qed.
Lemma sub_length : forall A (xs ys : list A), sub xs ys -> (length xs <= length ys)%nat.
Proof. induction 1; simpl; lia. Qed.
Lemma sub_sorted : forall A (P : A -> A -> Prop) xs ys, sub xs ys -> StronglySorted P ys -> StronglySorted P xs.
Proof.
  induction 1; intro S; auto; inversion S; subst; auto. constructor; auto.
  rewrite Forall_forall in *. intros y I. apply H3. eapply sub_in; eauto.
Qed.
Lemma sub_map : forall A B (f : A -> B) xs ys, sub xs ys -> sub (map f xs) (map f ys).
Proof. induction 1; simpl; [apply Sub_nil|apply Sub_skip|apply Sub_take]; auto. Qed.
Lemma sub_trans : forall A (ys zs : list A), sub ys zs -> forall xs, sub xs ys -> sub xs zs.
Proof.
  induction 1; intros ws S; auto.
  - apply Sub_skip. auto.
  - inversion S; subst; [apply Sub_skip|apply Sub_take]; auto.
Qed.

Section Facts.
  Variable K : kernels.
  Local Notation col := (ncol K). Local Notation row := (nrow K). Local Notation cell := (ncell K).

  Definition same_tag (c c' : col) : Prop := n_gen c = n_gen c' /\ n_int c = n_int c' /\ n_wl c = n_wl c' /\ n_id c = n_id c'.
  Lemma tag_refl : forall c, same_tag c c. Proof. repeat split. Qed.
  Lemma tag_trans : forall a b c, same_tag a b -> same_tag b c -> same_tag a c.
  Proof. intros a b c (A & B & C & D) (A' & B' & C' & D'). repeat split; congruence. Qed.
  Definition same_cell (x y : cell) : Prop := fst x = fst y /\ same_tag (snd x) (snd y).

  Lemma write_same : forall mask f cells j, Forall2 same_cell cells (n_write K mask f j cells).
  Proof.
    induction cells as [|x r IH]; intro j; simpl; [constructor|]. destruct (mask x); constructor; auto; split; auto; repeat split.
  Qed.
  Lemma surface_same : forall e cells cells', n_surface K e cells = Some cells' -> Forall2 same_cell cells cells'.
  Proof.
    intros e cells cells'. unfold n_surface. cbv zeta. destruct (existsb _ cells).
    - destruct (k_trace K _ _); [|discriminate]. intro E. injection E as <-. apply write_same.
    - intro E. injection E as <-. clear. induction cells; constructor; auto. split; auto. apply tag_refl.
  Qed.
  Lemma same_trans : forall a b c, Forall2 same_cell a b -> Forall2 same_cell b c -> Forall2 same_cell a c.
  Proof.
    intros a b c H. revert c. induction H as [|x y xs ys [E T] _ IH]; intros c H; inversion H as [|? z ? zs [E' T'] H']; subst; constructor; auto.
    split; [congruence|eapply tag_trans; eauto].
  Qed.
  Lemma surfaces_same : forall table cells cells', n_surfaces K table cells = Some cells' -> Forall2 same_cell cells cells'.
  Proof.
    induction table as [|e r IH]; intros cells cells'; simpl.
    - intro E. injection E as <-. clear. induction cells; constructor; auto. split; auto. apply tag_refl.
    - destruct (n_surface K e cells) as [c1|] eqn:E1; [|discriminate]. intro E. eapply same_trans; [eapply surface_same; eauto|]. apply IH. exact E.
  Qed.
  Definition tagged (c : col) (x : cell) : Prop := same_tag c (snd x).
  Lemma copy_tags : forall hits rays, length hits = length rays ->
    Forall2 tagged rays (map (fun q => n_copy K (fst q) (snd q)) (combine hits rays)).
  Proof.
    induction hits as [|h hits IH]; intros [|c rays] L; try discriminate; simpl; constructor; auto.
    unfold tagged, n_copy; simpl. destruct (Z.eqb (snd h) (-1)); repeat split.
  Qed.
  Lemma hits_length : forall rays, length (n_hits K rays) = length rays.
  Proof. intro rays. apply entries_length. Qed.
  Lemma turn_tags : forall table rays cells,
    n_surfaces K table (map (fun q => n_copy K (fst q) (snd q)) (combine (n_hits K rays) rays)) = Some cells -> Forall2 tagged rays cells.
  Proof.
    intros table rays cells E. apply surfaces_same in E. pose proof (copy_tags (n_hits K rays) rays (hits_length rays)) as H.
    revert H E. generalize (map (fun q => n_copy K (fst q) (snd q)) (combine (n_hits K rays) rays)). intros l H. revert cells.
    induction H as [|c x rs xs T _ IH]; intros cells E; inversion E as [|? y ? ys [_ T'] E']; subst; constructor; auto. eapply tag_trans; eauto.
  Qed.

  (** ** Selecting *)
  Lemma select_sub : forall A m (xs : list A), sub (select m xs) xs.
  Proof.
    intros A m xs. revert m. induction xs as [|x xs IH]; intros [|b m]; simpl.
    - apply Sub_nil.
    - apply Sub_nil.
    - apply sub_nil_l.
    - destruct b; [apply Sub_take|apply Sub_skip]; apply IH.
  Qed.
  Lemma select_forall2 : forall A B (P : A -> B -> Prop) m xs ys, Forall2 P xs ys -> Forall2 P (select m xs) (select m ys).
  Proof. intros A B P m xs ys H. revert m. induction H; intros [|[] m]; simpl; try constructor; auto. Qed.
  Lemma dead_length : forall rays cells, length rays = length cells -> length (n_dead K rays cells) = length rays.
  Proof. intros rays cells L. unfold n_dead. rewrite map_length, combine_len; rewrite ?combine_len, ?entries_length; lia. Qed.
  Lemma living_hit : forall rays cells x, length rays = length cells -> In x (select (map negb (n_dead K rays cells)) cells) -> snd (fst x) <> (-1)%Z.
  Proof.
    intros rays cells x L. unfold n_dead. assert (LE : length (entries (length rays) (k_absorbed K (map n_beam rays))) = length rays) by apply entries_length.
    revert LE. generalize (entries (length rays) (k_absorbed K (map n_beam rays))). revert rays L.
    induction cells as [|y cells IH]; intros [|c rays] L [|b bs] LE I; try discriminate; simpl in *; try contradiction.
    destruct (b || Z.eqb (snd (fst y)) (-1))%bool eqn:E; simpl in I.
    - apply (IH rays ltac:(lia) bs ltac:(lia) I).
    - destruct I as [<-|I]; [|apply (IH rays ltac:(lia) bs ltac:(lia) I)]. apply orb_false_elim in E. destruct E as [_ E]. apply Z.eqb_neq. exact E.
  Qed.
  Lemma all_dead_select : forall A m (xs : list A), length m = length xs -> select (map negb m) xs = [] <-> forallb (fun b => b) m = true.
  Proof.
    induction m as [|[] m IH]; intros [|x xs] L; try discriminate; simpl; [tauto|apply IH; auto|]. split; discriminate.
  Qed.

  (** ** The rows of a generation *)
  Lemma insert_spec : forall rays cells, length rays = length cells ->
    Forall2 (fun (c : col) (w : row) => nr_gen w = n_gen c /\ nr_int w = n_int c /\ nr_wl w = n_wl c /\ nr_idx w = n_idx c /\ nr_id w = n_id c /\ nr_start w = k_origin K (n_beam c)) rays (n_insert K rays cells) /\
    Forall2 (fun (x : cell) (w : row) => nr_surf w = snd (fst x) /\ nr_end w = k_origin K (n_beam (snd x))) cells (n_insert K rays cells).
  Proof.
    intros rays cells L. unfold n_insert. assert (LE : length (entries (length rays) (k_tilt K (map n_beam rays))) = length rays) by apply entries_length.
    revert LE. generalize (entries (length rays) (k_tilt K (map n_beam rays))). revert cells L.
    induction rays as [|c rays IH]; intros [|[h c'] cells] L [|b bs] LE; try discriminate; simpl; [split; constructor|].
    destruct (IH cells ltac:(simpl in *; lia) bs ltac:(simpl in *; lia)) as [A B]. split; constructor; auto; repeat split.
  Qed.
  Lemma offset_tags : forall rays, Forall2 same_tag rays (n_offset K rays).
  Proof.
    intro rays. unfold n_offset. assert (LE : length (entries (length rays) (k_offset K (map n_beam rays))) = length rays) by apply entries_length.
    revert LE. generalize (entries (length rays) (k_offset K (map n_beam rays))).
    induction rays as [|c rays IH]; intros [|b bs] LE; try discriminate; simpl; constructor; auto. repeat split.
  Qed.

  (** ** The waves of rows *)
  Variable src : list col.
  Definition from_source (w : row) : Prop := exists c, nth_error src (nr_id w) = Some c /\ nr_int w = n_int c /\ nr_wl w = n_wl c.
  Inductive waves : nat -> list nat -> list row -> Prop :=
  | Waves_nil : forall g ids, waves g ids []
  | Waves_step : forall g ids b rest, b <> [] -> sub (map nr_id b) ids -> Forall (fun w => nr_gen w = g /\ nr_surf w <> (-1)%Z /\ from_source w) b ->
      waves (S g) (map nr_id b) rest -> waves g ids (b ++ rest).
  Definition at_gen (g : nat) (rays : list col) : Prop :=
    Forall (fun c => n_gen c = g /\ exists c0, nth_error src (n_id c) = Some c0 /\ n_int c = n_int c0 /\ n_wl c = n_wl c0) rays.

  Lemma forall2_length : forall A B (P : A -> B -> Prop) xs ys, Forall2 P xs ys -> length xs = length ys.
  Proof. induction 1; simpl; auto. Qed.
  Lemma forall2_map_eq : forall A B C (f : A -> C) (g : B -> C) (P : A -> B -> Prop) xs ys, (forall x y, P x y -> f x = g y) -> Forall2 P xs ys -> map f xs = map g ys.
  Proof. intros A B C f g P xs ys H F. induction F; simpl; f_equal; auto. Qed.
  Lemma forall2_forall_r : forall A B (P : A -> B -> Prop) (Q : A -> Prop) (T : B -> Prop) xs ys, Forall2 P xs ys -> Forall Q xs -> (forall x y, P x y -> Q x -> T y) -> Forall T ys.
  Proof. intros A B P Q T xs ys F. induction F; intros Q' H'; constructor; inversion Q'; subst; eauto. Qed.

  Lemma turn : forall g rays cells, Forall2 tagged rays cells -> at_gen g rays ->
    let m := map negb (n_dead K rays cells) in let next := select m cells in let b := n_insert K (select m rays) next in
    let rays' := n_offset K (map (set_generation K (S g)) (map snd next)) in
    sub (map nr_id b) (map n_id rays) /\ Forall (fun w => nr_gen w = g /\ nr_surf w <> (-1)%Z /\ from_source w) b /\
    at_gen (S g) rays' /\ map n_id rays' = map nr_id b /\ (b = [] <-> forallb (fun x => x) (n_dead K rays cells) = true).
  Proof.
    intros g rays cells T A m next b rays'. pose proof (forall2_length _ _ _ _ _ T) as L.
    pose proof (select_forall2 _ _ _ m _ _ T) as T'. pose proof (forall2_length _ _ _ _ _ T') as L'.
    destruct (insert_spec (select m rays) next L') as (I1 & I2).
    assert (IDS : map nr_id b = map n_id (select m rays)).
    { symmetry. eapply forall2_map_eq; [|exact I1]. simpl. intros c w H. symmetry. apply H. }
    assert (A' : at_gen g (select m rays)).
    { unfold at_gen in *. rewrite Forall_forall in *. intros c IN. apply A. eapply sub_in; [apply select_sub|exact IN]. }
    assert (T2 : Forall2 (fun c c' => same_tag c (set_generation K g c') /\ n_gen c' = S g) (select m rays) rays').
    { unfold rays'. assert (X : Forall2 (fun c c' : col => n_int c = n_int c' /\ n_wl c = n_wl c' /\ n_id c = n_id c' /\ n_gen c = g /\ n_gen c' = S g) (select m rays) (map (set_generation K (S g)) (map snd next))).
      { fold next in T'. clear - T' A'. unfold at_gen in A'. induction T' as [|c x rs xs (E1 & E2 & E3 & E4) _ IH]; simpl; constructor.
        - inversion A' as [|? ? (G & _) ?]; subst. repeat split; simpl; auto.
        - apply IH. inversion A'; auto. }
      pose proof (offset_tags (map (set_generation K (S g)) (map snd next))) as O. revert X O. generalize (map (set_generation K (S g)) (map snd next)) at 1 2. 
      generalize (n_offset K (map (set_generation K (S g)) (map snd next))). clear. intros ys xs X. revert ys.
      induction X as [|c c' rs xs (E1 & E2 & E3 & E4 & E5) _ IH]; intros ys O; inversion O as [|? y ? ys' (F1 & F2 & F3 & F4) O']; subst; constructor; auto.
      repeat split; simpl; congruence. }
    split; [|split; [|split; [|split]]].
    - rewrite IDS. apply sub_map. apply select_sub.
    - apply Forall_forall. intros w IN. 
      assert (W1 : Forall (fun w : row => nr_gen w = g /\ from_source w) b).
      { eapply forall2_forall_r; [exact I1|exact A'|]. simpl. intros c w' (E1 & E2 & E3 & E4 & E5 & _) (G & c0 & N & X1 & X2). split; [congruence|]. exists c0. rewrite E5. repeat split; congruence. }
      assert (W2 : Forall (fun w : row => nr_surf w <> (-1)%Z) b).
      { eapply forall2_forall_r; [exact I2|apply Forall_forall; intros x IX; exact (living_hit rays cells x L IX)|]. simpl. intros x w' (E & _) N. rewrite E. exact N. }
      rewrite Forall_forall in W1, W2. destruct (W1 w IN). split; auto.
    - eapply forall2_forall_r; [exact T2|exact A'|]. simpl. intros c c' ((E1 & E2 & E3 & E4) & G') (_ & c0 & N & X1 & X2). split; auto. exists c0. cbn in *. rewrite <- E4. repeat split; congruence.
    - rewrite IDS. symmetry. eapply forall2_map_eq; [|exact T2]. simpl. intros c c' ((_ & _ & _ & E) & _). exact E.
    - rewrite <- (all_dead_select _ (n_dead K rays cells) cells) by (rewrite dead_length; auto). fold m. fold next.
      assert (LB : length b = length next) by (symmetry; exact (forall2_length _ _ _ _ _ I2)). split; intro E; rewrite E in LB; apply length_zero_iff_nil; simpl in LB; auto.
  Qed.

  Lemma loop_waves : forall table limit fuel g rays rows out, at_gen g rays ->
    n_loop K fuel table limit g rays rows = Finished out -> exists new, out = rows ++ new /\ waves g (map n_id rays) new.
  Proof.
    induction fuel as [|fuel IH]; intros g rays rows out A; cbn [n_loop]; [discriminate|]. cbv zeta.
    destruct (n_surfaces K table _) as [cells|] eqn:E; [|discriminate]. pose proof (turn_tags _ _ _ E) as T.
    destruct (turn g rays cells T A) as (S1 & S2 & S3 & S4 & S5).
    destruct (forallb (fun b => b) (n_dead K rays cells)) eqn:D.
    - intro F. injection F as <-. exists []. rewrite app_nil_r. split; auto. constructor.
    - assert (NB : n_insert K (select (map negb (n_dead K rays cells)) rays) (select (map negb (n_dead K rays cells)) cells) <> []) by (intro Z; apply S5 in Z; discriminate).
      destruct (Z.eqb (Z.of_nat (S g)) limit).
      + intro F. injection F as <-. eexists. split; [reflexivity|]. rewrite <- (app_nil_r (n_insert _ _ _)). apply Waves_step; auto. constructor.
      + intro F. apply IH in F; [|exact S3]. destruct F as (new & -> & W). rewrite <- app_assoc. eexists. split; [reflexivity|]. apply Waves_step; auto. rewrite <- S4. exact W.
  Qed.
  Lemma loop_limit : forall table limit fuel g rays rows out, at_gen g rays -> (Z.of_nat g < limit)%Z ->
    n_loop K fuel table limit g rays rows = Finished out -> exists new, out = rows ++ new /\ Forall (fun w => (Z.of_nat (nr_gen w) < limit)%Z) new.
  Proof.
    induction fuel as [|fuel IH]; intros g rays rows out A LT; cbn [n_loop]; [discriminate|]. cbv zeta.
    destruct (n_surfaces K table _) as [cells|] eqn:E; [|discriminate]. pose proof (turn_tags _ _ _ E) as T.
    destruct (turn g rays cells T A) as (S1 & S2 & S3 & S4 & S5).
    assert (S2' : Forall (fun w : row => (Z.of_nat (nr_gen w) < limit)%Z) (n_insert K (select (map negb (n_dead K rays cells)) rays) (select (map negb (n_dead K rays cells)) cells))).
    { eapply Forall_impl; [|exact S2]. simpl. intros w (-> & _). exact LT. }
    destruct (forallb (fun b => b) (n_dead K rays cells)) eqn:D.
    - intro F. injection F as <-. exists []. rewrite app_nil_r. split; auto.
    - destruct (Z.eqb (Z.of_nat (S g)) limit) eqn:Q.
      + intro F. injection F as <-. eexists. split; [reflexivity|]. exact S2'.
      + intro F. apply IH in F; [|exact S3|apply Z.eqb_neq in Q; lia]. destruct F as (new & -> & W). rewrite <- app_assoc. eexists. split; [reflexivity|].
        apply Forall_app. split; auto.
  Qed.
  Lemma loop_ends : forall table limit fuel g rays rows, (Z.of_nat g < limit)%Z -> (limit <= Z.of_nat (g + fuel))%Z -> n_loop K fuel table limit g rays rows <> Running.
  Proof.
    induction fuel as [|fuel IH]; intros g rays rows LT LE; cbn [n_loop]; [lia|]. cbv zeta.
    destruct (n_surfaces K table _) as [cells|]; [|discriminate]. destruct (forallb _ _); [discriminate|].
    destruct (Z.eqb (Z.of_nat (S g)) limit) eqn:Q; [discriminate|]. apply Z.eqb_neq in Q. apply IH; lia.
  Qed.
  Lemma loop_fuel : forall table limit fuel fuel' g rays rows, (fuel <= fuel')%nat -> n_loop K fuel table limit g rays rows <> Running ->
    n_loop K fuel' table limit g rays rows = n_loop K fuel table limit g rays rows.
  Proof.
    induction fuel as [|fuel IH]; intros [|fuel'] g rays rows LE; cbn [n_loop]; try congruence; [lia|]. cbv zeta.
    destruct (n_surfaces K table _) as [cells|]; auto. destruct (forallb _ _); auto.
    destruct (Z.eqb (Z.of_nat (S g)) limit); auto. apply IH. lia.
  Qed.
  Lemma loop_cut : forall table limit limit' fuel g rays rows out, at_gen g rays -> (Z.of_nat g < limit')%Z -> (limit' <= limit)%Z ->
    Forall (fun w => (Z.of_nat (nr_gen w) < limit')%Z) rows ->
    n_loop K fuel table limit g rays rows = Finished out ->
    n_loop K fuel table limit' g rays rows = Finished (filter (fun w => Z.ltb (Z.of_nat (nr_gen w)) limit') out).
  Proof.
    assert (KEEP : forall l rows, Forall (fun w : row => (Z.of_nat (nr_gen w) < l)%Z) rows -> filter (fun w => Z.ltb (Z.of_nat (nr_gen w)) l) rows = rows).
    { induction 1 as [|w rows H _ IH]; simpl; auto. apply Z.ltb_lt in H. rewrite H, IH. reflexivity. }
    assert (DROP : forall l g ids new, waves g ids new -> (l <= Z.of_nat g)%Z -> filter (fun w => Z.ltb (Z.of_nat (nr_gen w)) l) new = []).
    { induction 1 as [|g ids b rest _ _ H _ IH]; intro LE; auto. rewrite filter_app, IH by lia. rewrite app_nil_r. clear - H LE.
      induction H as [|w b (G & _) _ IH]; simpl; auto. rewrite G, IH. destruct (Z.ltb_spec (Z.of_nat g) l); auto. lia. }
    induction fuel as [|fuel IH]; intros g rays rows out A LT LE FR; cbn [n_loop]; [discriminate|]. cbv zeta.
    destruct (n_surfaces K table _) as [cells|] eqn:E; [|discriminate]. pose proof (turn_tags _ _ _ E) as T.
    destruct (turn g rays cells T A) as (S1 & S2 & S3 & S4 & S5).
    assert (S2' : Forall (fun w : row => (Z.of_nat (nr_gen w) < limit')%Z) (n_insert K (select (map negb (n_dead K rays cells)) rays) (select (map negb (n_dead K rays cells)) cells))).
    { eapply Forall_impl; [|exact S2]. simpl. intros w (-> & _). exact LT. }
    destruct (forallb (fun b => b) (n_dead K rays cells)) eqn:D.
    - intro F. injection F as <-. rewrite KEEP; auto.
    - destruct (Z.eqb_spec (Z.of_nat (S g)) limit') as [Q'|Q'].
      + destruct (Z.eqb_spec (Z.of_nat (S g)) limit) as [Q|Q].
        * intro F. injection F as <-. rewrite KEEP; auto. apply Forall_app. auto.
        * intro F. apply loop_waves in F; [|exact S3]. destruct F as (new & -> & W). rewrite filter_app, (DROP _ _ _ _ W) by lia. rewrite app_nil_r, KEEP; auto. apply Forall_app. auto.
      + destruct (Z.eqb_spec (Z.of_nat (S g)) limit) as [Q|Q]; [exfalso; lia|]. apply IH; auto; [lia|]. apply Forall_app. auto.
  Qed.
End Facts.
