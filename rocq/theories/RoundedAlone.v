(** * RoundedAlone: with arithmetic that treats every ray by itself, the rays are traced independently *)
From Coq Require Import List Bool ZArith Lia Sorted.
Import ListNotations.
From Verif Require Import Rounded SpecRounded RoundedFacts RoundedProps.

Lemma entries_by_itself : forall A B (k : list A -> nat -> B) k1 xs, by_itself k k1 -> entries (length xs) (k xs) = map k1 xs.
Proof.
  intros A B k k1 xs H. unfold entries. 
  assert (G : forall pre, (forall i x, nth_error xs i = Some x -> k (pre ++ xs) (length pre + i)%nat = k1 x)%nat -> map (k (pre ++ xs)) (seq (length pre) (length xs)) = map k1 xs).
  { clear. induction xs as [|x xs IH]; intros pre G; simpl; auto. f_equal.
    - specialize (G 0%nat x eq_refl). rewrite Nat.add_0_r in G. exact G.
    - specialize (IH (pre ++ [x])). rewrite <- app_assoc in IH. simpl in IH. rewrite app_length in IH. simpl in IH. rewrite Nat.add_1_r in IH. apply IH.
      intros i y E. replace (S (length pre) + i)%nat with (length pre + S i)%nat by lia. apply G. exact E. }
  apply (G []). intros i x E. apply H. exact E.
Qed.

Section Alone.
  Variable K : kernels.
  Variable O : one_ray K.
  Hypothesis RR : ray_by_ray K O.
  Local Notation col := (ncol K). Local Notation row := (nrow K). Local Notation cell := (ncell K).

  Lemma hits_alone : forall rays : list col, n_hits K rays = map (fun c => o_hit K O (n_beam c)) rays.
  Proof. intro rays. destruct RR as (H & _). unfold n_hits. rewrite <- (map_length n_beam), (entries_by_itself _ _ _ _ _ H), map_map. reflexivity. Qed.

  (** One surface acting on one cell *)
  Definition act (e : Z * surface K) (x : cell) : option cell :=
    if Z.eqb (snd (fst x)) (fst e) then
      match o_trace K O (snd e) with
      | None => None
      | Some f => let q := f (o_advance K O (fst (fst x), n_beam (snd x)), n_wl (snd x), n_idx (snd x)) in Some (fst x, set_index K (snd q) (set_beam K (fst q) (snd x)))
      end
    else Some x.
  Lemma write_alone : forall mask f (G : cell -> beam K * num K) cells j,
    (forall k x, nth_error (filter mask cells) k = Some x -> f (j + k)%nat = G x) ->
    n_write K mask f j cells = map (fun x => if mask x then (fst x, set_index K (snd (G x)) (set_beam K (fst (G x)) (snd x))) else x) cells.
  Proof.
    induction cells as [|x r IH]; intros j H; simpl; auto. simpl in H. destruct (mask x) eqn:M.
    - pose proof (H 0%nat x eq_refl) as H0. rewrite Nat.add_0_r in H0. rewrite H0. f_equal. apply IH. intros k y E. replace (S j + k)%nat with (j + S k)%nat by lia. apply H. exact E.
    - f_equal. apply IH. exact H.
  Qed.
  Lemma surface_alone : forall e cells cells', n_surface K e cells = Some cells' -> Forall2 (fun x x' => act e x = Some x') cells cells'.
  Proof.
    intros e cells cells'. unfold n_surface. cbv zeta. set (mask := fun x : cell => Z.eqb (snd (fst x)) (fst e)).
    destruct (existsb mask cells) eqn:EX.
    - set (masked := filter mask cells). destruct RR as (_ & HA & _ & _ & _ & HT).
      replace (entries (length masked) (k_advance K (map (fun x : cell => (fst (fst x), n_beam (snd x))) masked)))
        with (map (fun x : cell => o_advance K O (fst (fst x), n_beam (snd x))) masked).
      2:{ rewrite <- (map_length (fun x : cell => (fst (fst x), n_beam (snd x))) masked), (entries_by_itself _ _ _ _ _ HA), map_map. reflexivity. }
      assert (EA : map (fun q : beam K * cell => (fst q, n_wl (snd (snd q)), n_idx (snd (snd q)))) (combine (map (fun x : cell => o_advance K O (fst (fst x), n_beam (snd x))) masked) masked)
        = map (fun x : cell => (o_advance K O (fst (fst x), n_beam (snd x)), n_wl (snd x), n_idx (snd x))) masked).
      { generalize masked. clear. induction masked as [|x r IH]; simpl; auto. f_equal. exact IH. }
      rewrite EA. clear EA. set (args := map _ masked).
      assert (NA : args <> []).
      { unfold args, masked. intro E. apply map_eq_nil in E. apply existsb_exists in EX. destruct EX as (x & I & M). assert (J : In x (filter mask cells)) by (apply filter_In; auto). rewrite E in J. contradiction. }
      specialize (HT (snd e) args). destruct (o_trace K O (snd e)) as [f|] eqn:OT.
      + destruct HT as (g & -> & HG). intro E. injection E as <-.
        rewrite (write_alone mask g (fun x => f (o_advance K O (fst (fst x), n_beam (snd x)), n_wl (snd x), n_idx (snd x)))).
        * clear - OT. induction cells as [|x r IH]; simpl; constructor; auto. unfold act. fold (mask x). rewrite OT. destruct (mask x); reflexivity.
        * intros k x E. simpl. apply HG. unfold args. rewrite nth_error_map. fold masked in E. rewrite E. reflexivity.
      + rewrite (HT NA). discriminate.
    - intro E. injection E as <-. clear - EX. induction cells as [|x r IH]; simpl in *; constructor.
      + apply orb_false_elim in EX. unfold act. fold (mask x). rewrite (proj1 EX). reflexivity.
      + apply IH. apply orb_false_elim in EX. apply EX.
  Qed.
  Fixpoint acts (table : list (Z * surface K)) (x : cell) : option cell :=
    match table with [] => Some x | e :: r => match act e x with None => None | Some x' => acts r x' end end.
  Lemma surfaces_alone : forall table cells cells', n_surfaces K table cells = Some cells' -> Forall2 (fun x x' => acts table x = Some x') cells cells'.
  Proof.
    induction table as [|e r IH]; intros cells cells'; simpl.
    - intro E. injection E as <-. clear. induction cells; constructor; auto.
    - destruct (n_surface K e cells) as [c1|] eqn:E1; [|discriminate]. intro E. apply IH in E. apply surface_alone in E1.
      revert cells' E. induction E1 as [|x x1 xs xs1 A _ IH1]; intros cells' E; inversion E as [|? y ? ys B E']; subst; constructor; auto. rewrite A. exact B.
  Qed.
  Lemma acts_met : forall table h c, acts table (h, c) = match met K O h table c with Some c' => Some (h, c') | None => None end.
  Proof.
    induction table as [|(z, s) r IH]; intros h c; simpl; auto. unfold act. simpl. destruct (Z.eqb (snd h) z); [|apply IH].
    destruct (o_trace K O s) as [f|]; [apply IH|reflexivity].
  Qed.

  Definition lives (c : col) : bool := negb (orb (o_absorbed K O (n_beam c)) (Z.eqb (snd (o_hit K O (n_beam c))) (-1))).
  (** What a turn leaves of a ray that lives on *)
  Definition turned (table : list (Z * surface K)) (c : col) (x : cell) : Prop :=
    fst x = o_hit K O (n_beam c) /\ (lives c = true -> met K O (o_hit K O (n_beam c)) table c = Some (snd x)).
  Lemma turn_alone : forall table rays cells,
    n_surfaces K table (map (fun q => n_copy K (fst q) (snd q)) (combine (n_hits K rays) rays)) = Some cells -> Forall2 (turned table) rays cells.
  Proof.
    intros table rays cells E. rewrite hits_alone in E. apply surfaces_alone in E. revert cells E. induction rays as [|c r IH]; intros cells E; simpl in E; inversion E as [|? x ? xs A E']; subst; constructor; auto.
    unfold n_copy in A. rewrite acts_met in A. unfold turned, lives.
    destruct (met K O (o_hit K O (n_beam c)) table _) as [c'|] eqn:M; [|discriminate]. injection A as <-. split; [reflexivity|]. intro L. simpl.
    destruct (Z.eqb (snd (o_hit K O (n_beam c))) (-1)); [|exact M]. rewrite orb_true_r in L. discriminate.
  Qed.
  Lemma dead_alone : forall table rays cells, Forall2 (turned table) rays cells -> map negb (n_dead K rays cells) = map lives rays.
  Proof.
    intros table rays cells T. destruct RR as (_ & _ & H & _). unfold n_dead. rewrite <- (map_length n_beam), (entries_by_itself _ _ _ _ _ H).
    induction T as [|c x r xs (E & _) _ IH]; simpl; auto. rewrite IH, E. reflexivity.
  Qed.
  Lemma tilts_alone : forall rays : list col, entries (length rays) (k_tilt K (map n_beam rays)) = map (fun c => o_tilt K O (n_beam c)) rays.
  Proof. intro rays. destruct RR as (_ & _ & _ & H & _). rewrite <- (map_length n_beam), (entries_by_itself _ _ _ _ _ H), map_map. reflexivity. Qed.
  Lemma offset_alone : forall rays : list col, n_offset K rays = map (fun c => set_beam K (o_offset K O (n_beam c)) c) rays.
  Proof.
    intro rays. unfold n_offset. destruct RR as (_ & _ & _ & _ & H & _). rewrite <- (map_length n_beam), (entries_by_itself _ _ _ _ _ H), map_map.
    induction rays as [|c r IH]; simpl; auto. f_equal. exact IH.
  Qed.

  (** The rows and the rays of the next turn, ray by ray *)
  Definition survives (table : list (Z * surface K)) (g : nat) (c : col) (w : row) (n : col) : Prop :=
    exists c', met K O (o_hit K O (n_beam c)) table c = Some c' /\ w = leg K O c c' (snd (o_hit K O (n_beam c))) /\
      n = set_beam K (o_offset K O (n_beam c')) (set_generation K (S g) c').
  Lemma turn_rows : forall table g rays cells, Forall2 (turned table) rays cells ->
    let m := map negb (n_dead K rays cells) in
    exists b ns, n_insert K (select m rays) (select m cells) = b /\ n_offset K (map (set_generation K (S g)) (map snd (select m cells))) = ns /\
      Forall2 (fun c q => survives table g c (fst q) (snd q)) (filter lives rays) (combine b ns) /\ length b = length ns.
  Proof.
    intros table g rays cells T m. eexists. eexists. split; [reflexivity|]. split; [reflexivity|]. unfold m. rewrite (dead_alone table _ _ T), offset_alone. unfold n_insert. rewrite tilts_alone.
    induction T as [|c x r xs (E & L) _ IH]; simpl; [split; constructor|]. destruct (lives c) eqn:LC; [|exact IH]. destruct IH as [IH1 IH2]. simpl. split; [|f_equal; exact IH2].
    constructor; [|exact IH1]. destruct x as [h c']. simpl in *. exists c'. split; [apply L; reflexivity|]. split; [|reflexivity]. unfold leg. rewrite E. reflexivity.
  Qed.
  Lemma met_tag : forall h table c c', met K O h table c = Some c' -> same_tag K c c'.
  Proof.
    induction table as [|(z, s) r IH]; intros c c'; simpl.
    - intro E. injection E as <-. apply tag_refl.
    - destruct (Z.eqb (snd h) z); [|apply IH]. destruct (o_trace K O s); [|discriminate]. intro E. apply IH in E. eapply tag_trans; [|exact E]. repeat split.
  Qed.

  Lemma survive_ids : forall table g rs b ns, Forall2 (fun c (q : row * col) => survives table g c (fst q) (snd q)) rs (combine b ns) -> length b = length ns ->
    map nr_id b = map n_id rs /\ map n_id ns = map n_id rs.
  Proof.
    intros table g rs b ns H. revert b ns H. induction rs as [|c rs IH]; intros b ns H L; inversion H as [|? q ? qs (c' & M & W & N) H' E1 E2]; subst.
    - destruct b, ns; try discriminate; auto.
    - destruct b as [|w b], ns as [|n ns]; try discriminate. simpl in E2. injection E2 as E3 E4. subst q qs. simpl in W, N. subst w n. destruct (IH b ns H' ltac:(simpl in L; lia)) as [A B]. simpl. rewrite A, B.
      destruct (met_tag _ _ _ _ M) as (_ & _ & _ & ->). auto.
  Qed.
  Lemma survive_in : forall table g rs b ns, Forall2 (fun c (q : row * col) => survives table g c (fst q) (snd q)) rs (combine b ns) -> length b = length ns ->
    forall c, In c rs -> exists w n, In w b /\ In n ns /\ survives table g c w n.
  Proof.
    intros table g rs b ns H. revert b ns H. induction rs as [|c0 rs IH]; intros b ns H L c I; [contradiction|]. inversion H as [|? q ? qs SV H' E1 E2]; subst.
    destruct b as [|w b], ns as [|n ns]; try discriminate. simpl in E2. injection E2 as E3 E4. subst q qs. destruct I as [<-|I].
    - exists w, n. simpl. auto.
    - destruct (IH b ns H' ltac:(simpl in L; lia) c I) as (w' & n' & A & B & C). exists w', n'. simpl. auto.
  Qed.

  Lemma loop_paths : forall table limit fuel g rays rows out, NoDup (map n_id rays) ->
    n_loop K fuel table limit g rays rows = Finished out -> exists new, out = rows ++ new /\ (forall w, In w new -> In (nr_id w) (map n_id rays)) /\
      forall c, In c rays -> path K O table limit g c (of_ray (n_id c) new).
  Proof.
    induction fuel as [|fuel IH]; intros g rays rows out ND; cbn [n_loop]; [discriminate|]. cbv zeta.
    destruct (n_surfaces K table _) as [cells|] eqn:E; [|discriminate]. pose proof (turn_alone _ _ _ E) as T.
    pose proof (dead_alone _ _ _ T) as D. destruct (turn_rows table g rays cells T) as (b & ns & EB & EN & SV & LB).
    rewrite EB, EN. destruct (survive_ids _ _ _ _ _ SV LB) as (IB & IN).
    assert (ENDS : forall c, In c rays -> lives c = false -> o_absorbed K O (n_beam c) = true \/ snd (o_hit K O (n_beam c)) = (-1)%Z).
    { intros c _ L. unfold lives in L. apply negb_false_iff, orb_true_iff in L. rewrite Z.eqb_eq in L. exact L. }
    assert (GOES : forall c, lives c = true -> o_absorbed K O (n_beam c) = false /\ snd (o_hit K O (n_beam c)) <> (-1)%Z).
    { intros c L. unfold lives in L. apply negb_true_iff, orb_false_iff in L. rewrite Z.eqb_neq in L. exact L. }
    assert (SUB : forall i, In i (map n_id (filter lives rays)) -> In i (map n_id rays)).
    { intros i J. apply in_map_iff in J. destruct J as (c & <- & J). apply filter_In in J. apply in_map. apply J. }
    assert (UNIQ : forall c c', In c rays -> In c' rays -> n_id c = n_id c' -> c = c').
    { clear - ND. induction rays as [|c0 r IHr]; simpl; intros c c' I I' EQ; [contradiction|]. inversion ND as [|? ? N ND']; subst.
      destruct I as [<-|I], I' as [<-|I']; auto; [exfalso; apply N; rewrite EQ; apply in_map; exact I'|exfalso; apply N; rewrite <- EQ; apply in_map; exact I]. }
    assert (NDL : NoDup (map n_id (filter lives rays))).
    { clear - ND. induction rays as [|c r IHr]; simpl; [constructor|]. inversion ND as [|? ? N ND']; subst. destruct (lives c); [|apply IHr; exact ND']. simpl. constructor; [|apply IHr; exact ND'].
      intro J. apply N. apply in_map_iff in J. destruct J as (c' & <- & J). apply filter_In in J. apply in_map. apply J. }
    assert (DEADID : forall c, In c rays -> lives c = false -> ~ In (n_id c) (map n_id (filter lives rays))).
    { intros c I L J. apply in_map_iff in J. destruct J as (c' & EQ & J). apply filter_In in J. destruct J as [J L']. rewrite (UNIQ c c' I J (eq_sym EQ)) in L. congruence. }
    destruct (forallb (fun b => b) (n_dead K rays cells)) eqn:AD.
    - intro F. injection F as <-. exists []. rewrite app_nil_r. split; auto. split; [intros w []|]. intros c I. apply Path_end. apply ENDS; auto.
      assert (X : forall c, In c rays -> lives c = false); [|auto]. clear - D AD. intros c I. assert (FL : Forall (fun b => b = true) (n_dead K rays cells)) by (apply forallb_forall in AD || (apply Forall_forall; apply forallb_forall; exact AD)); auto.
      assert (J : In (lives c) (map negb (n_dead K rays cells))) by (rewrite D; apply in_map; exact I). apply in_map_iff in J. destruct J as (b & <- & J). rewrite Forall_forall in FL. rewrite (FL b J). reflexivity.
    - destruct (Z.eqb_spec (Z.of_nat (S g)) limit) as [Q|Q].
      + intro F. injection F as <-. exists b. split; auto. split; [intros w J; apply SUB; rewrite <- IB; apply in_map; exact J|]. intros c I. destruct (lives c) eqn:L.
        * assert (IL : In c (filter lives rays)) by (apply filter_In; auto). destruct (survive_in _ _ _ _ _ SV LB c IL) as (w & n & W & N & c' & M & EW & E2).
          assert (X : exists w', of_ray (n_id c) b = [w'] /\ In w' b) by (apply of_ray_one; [rewrite IB; exact NDL|rewrite IB; apply in_map; exact IL]). destruct X as (w' & X & W').
          assert (w' = w). { assert (J : In w (of_ray (n_id c) b)) by (apply filter_In; split; auto; subst w; simpl; apply Nat.eqb_refl). rewrite X in J. destruct J as [J|[]]. exact J. }
          subst w'. rewrite X, EW. destruct (GOES c L). apply Path_last; auto.
        * rewrite of_ray_none; [apply Path_end; apply ENDS; auto|]. rewrite IB. apply DEADID; auto.
      + intro F. assert (NDN : NoDup (map n_id ns)) by (rewrite IN; exact NDL). destruct (IH (S g) ns (rows ++ b) out NDN F) as (new & -> & IDN & PN). rewrite <- app_assoc. exists (b ++ new). split; auto.
        assert (IDB : forall w, In w (b ++ new) -> In (nr_id w) (map n_id (filter lives rays))).
        { intros w J. apply in_app_or in J. destruct J as [J|J]; [rewrite <- IB; apply in_map; exact J|rewrite <- IN; apply IDN; exact J]. }
        split; [intros w J; apply SUB; auto|]. intros c I. destruct (lives c) eqn:L.
        * assert (IL : In c (filter lives rays)) by (apply filter_In; auto). destruct (survive_in _ _ _ _ _ SV LB c IL) as (w & n & W & N & c' & M & EW & E2).
          assert (X : exists w', of_ray (n_id c) b = [w'] /\ In w' b) by (apply of_ray_one; [rewrite IB; exact NDL|rewrite IB; apply in_map; exact IL]). destruct X as (w' & X & W').
          assert (w' = w). { assert (J : In w (of_ray (n_id c) b)) by (apply filter_In; split; auto; subst w; simpl; apply Nat.eqb_refl). rewrite X in J. destruct J as [J|[]]. exact J. }
          subst w'. unfold of_ray. rewrite filter_app. fold (of_ray (n_id c) b). fold (of_ray (n_id c) new). rewrite X, EW. destruct (GOES c L). simpl. apply Path_leg; auto. rewrite <- E2.
          replace (n_id c) with (n_id n); [apply PN; exact N|]. rewrite E2. simpl. destruct (met_tag _ _ _ _ M) as (_ & _ & _ & ->). reflexivity.
        * rewrite of_ray_none; [apply Path_end; apply ENDS; auto|]. intro J. apply in_map_iff in J. destruct J as (w & EQ & J). apply (DEADID c I L). rewrite <- EQ. apply IDB. exact J.
  Qed.
  Theorem traced_alone : forall fuel table limit rays rows, n_trace K fuel table limit rays = Finished rows ->
    forall i c, nth_error rays i = Some c -> path K O table limit 0 (set_id K i c) (of_ray i rows).
  Proof.
    intros fuel table limit rays rows E i c N. assert (ND : NoDup (map n_id (n_number K rays))) by (rewrite number_ids; apply seq_NoDup).
    destruct (loop_paths _ _ _ _ _ _ _ ND E) as (new & X & _ & P). simpl in X. subst new.
    pose proof (number_nth K rays 0 i c N) as M. simpl in M. apply (P (set_id K i c)). eapply nth_error_In. exact M.
  Qed.

  (** ** Absorbers *)
  Lemma path_absorbed : forall table limit, NoDup (map fst table) -> forall z s f, In (z, s) table -> o_trace K O s = Some f ->
    (forall b wl n, exists b0, fst (f (b, wl, n)) = k_stop K b0) -> (forall b, o_absorbed K O (o_offset K O (k_stop K b)) = true) ->
    forall g c rows, path K O table limit g c rows -> forall j w, nth_error rows j = Some w -> nr_surf w = z -> nth_error rows (S j) = None.
  Proof.
    intros table limit ND z s f IT OT ST AB.
    assert (MS : forall h c c', snd h = z -> met K O h table c = Some c' -> exists b, n_beam c' = k_stop K b).
    { intros h c c' HZ. revert c. induction table as [|(z', s') r IHt]; [contradiction|]. simpl in ND. inversion ND as [|? ? N ND']; subst. intro c. simpl.
      assert (REST : forall c c', ~ In (snd h) (map fst r) -> met K O h r c = Some c' -> c = c').
      { clear. induction r as [|(z2, s2) r IHr]; simpl; intros c c' NI E; [congruence|]. destruct (Z.eqb_spec (snd h) z2) as [E2|E2]; [exfalso; apply NI; auto|]. apply IHr; auto. }
      destruct IT as [IT|IT].
      - injection IT as E1 E2. subst z' s'. rewrite Z.eqb_refl, OT. intro E. apply REST in E; [|exact N]. subst c'. simpl. apply ST.
      - destruct (Z.eqb_spec (snd h) z') as [E|E].
        + exfalso. apply N. rewrite <- E. change (snd h) with (fst (snd h, s)). apply in_map. exact IT.
        + intro M. eapply (IHt ND' IT); eauto. }
    induction 1 as [g c H|g c c' A H M L|g c c' rest A H M L P IH]; intros j w E S.
    - destruct j; discriminate.
    - destruct j as [|[|j]]; [reflexivity|discriminate..].
    - destruct j as [|j].
      + simpl in E. injection E as <-. simpl in S. destruct (MS _ _ _ S M) as (b & EB). inversion P as [g' c1 H1|g' c1 c2 A1|g' c1 c2 rest' A1]; subst; [reflexivity|..];
          simpl in A1; rewrite EB, AB in A1; discriminate.
      + simpl in *. eapply IH; eauto.
  Qed.
End Alone.
