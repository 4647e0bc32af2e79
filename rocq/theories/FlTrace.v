(** * FlTrace: with rounded optics no live ray is taken for an absorbed one *)
From Coq Require Import Reals List Bool ZArith Lra Lia Psatz.
Import ListNotations.
From Flocq Require Import Core.
From Verif Require Import XR Lin Rounded SpecRounded RoundedFacts RoundedProps RoundedAlone Fl SpecFl FlFacts FlProps.
Open Scope R_scope.

Section Trace.
  Variable rnd : R -> R.
  Variables u eta : R.
  Hypothesis U0 : 0 <= u.
  Hypothesis E0 : 0 <= eta.
  Hypothesis RW : rounds_within u eta rnd.
  Hypothesis U1 : u <= / 1000000.
  Hypothesis E1 : eta <= u * / 1000000.
  Variable K : kernels.
  Variable O : one_ray K.
  Variable dir : beam K -> v4.
  Hypothesis OP : optical rnd K O dir.
  Variable table : list (Z * surface K).
  Hypothesis ND : NoDup (map fst table).
  Variable absorbing : Z -> Prop.
  Hypothesis TB : forall z s, In (z, s) table -> ~ absorbing z -> is_mirror rnd u eta K O dir s \/ is_glass rnd u eta K O dir s.

  Lemma met_skip : forall h (t : list (Z * surface K)) c c', ~ In (snd h) (map fst t) -> met K O h t c = Some c' -> c = c'.
  Proof.
    induction t as [|(z2, s2) r IHr]; simpl; intros c c' NI E; [congruence|]. destruct (Z.eqb_spec (snd h) z2) as [E2|E2]; [exfalso; apply NI; auto|]. apply IHr; auto.
  Qed.
  Lemma met_journey : forall h c c' j, ~ absorbing (snd h) -> met K O h table c = Some c' -> journey rnd u eta j (dir (n_beam c)) ->
    exists j', (j' <= S j)%nat /\ journey rnd u eta j' (dir (n_beam c')).
  Proof.
    intros h c c' j NA. revert TB ND. generalize table. intro t. induction t as [|(z, s) r IH]; intros TB ND M J; simpl in M.
    - injection M as <-. exists j. split; [lia|auto].
    - simpl in ND. inversion ND as [|? ? NI ND']; subst. destruct (Z.eqb_spec (snd h) z) as [E|E].
      + subst z. destruct OP as (AD & _ & _). destruct (TB _ _ (or_introl eq_refl) NA) as [(f & F & T)|(f & F & T)]; rewrite F in M; apply met_skip in M; auto; subst c'; cbn [n_beam set_index set_beam fst snd];
          specialize (T (o_advance K O (fst h, n_beam c)) (n_wl c) (n_idx c)); rewrite AD in T; exists (S j); (split; [lia|]).
        * destruct T as (raw & n & S1 & S2 & S3). exact (J_mirror rnd u eta j _ raw n _ J S1 S2 S3).
        * destruct T as (raw & n & n1 & n2 & ng & ix & S1 & S2 & P1 & P2 & P3 & Q2 & Q3 & S3). exact (J_glass rnd u eta j _ raw n n1 n2 ng _ ix J S1 S2 P1 P2 P3 Q2 Q3 S3).
      + apply IH; auto. intros z' s' I. apply TB. right. exact I.
  Qed.
  Lemma path_ends : forall limit g c rows, path K O table limit g c rows -> forall j, journey rnd u eta j (dir (n_beam c)) -> (j <= g)%nat -> n_gen c = g ->
    512 * (INR (g + length rows) + 1) * u <= / 2 -> (forall w, In w rows -> ~ absorbing (nr_surf w)) ->
    rows <> [] /\ Z.of_nat (g + length rows) = limit \/
    exists c', after K O table (length rows) c = Some c' /\ snd (o_hit K O (n_beam c')) = (-1)%Z.
  Proof.
    intros limit. induction 1 as [g c H|g c c' A H M L|g c c' rest A H M L P IH]; intros j J JG GE B NA.
    - right. exists c. split; [reflexivity|]. destruct H as [H|H]; auto. exfalso. destruct OP as (_ & _ & AB). destruct (AB _ H) as (s & F & C).
      simpl in B. rewrite Nat.add_0_r in B. assert (LE : INR j <= INR g) by (apply le_INR; auto).
      rewrite (journey_alive rnd u eta U0 E0 RW U1 E1 j _ s J ltac:(nra) F) in C. discriminate.
    - left. split; [discriminate|]. cbn [length]. rewrite Nat.add_1_r. exact L.
    - assert (NA1 : ~ absorbing (snd (o_hit K O (n_beam c)))). { apply (NA (leg K O c c' (snd (o_hit K O (n_beam c))))). left. reflexivity. }
      destruct (met_journey _ _ _ j NA1 M J) as (j' & LJ & J'). destruct OP as (_ & OF & _).
      destruct (IH j') as [(NE & E)|(c2 & E & Z1)].
      + cbn [n_beam set_beam]. rewrite OF. cbn [n_beam set_generation]. exact J'.
      + lia.
      + reflexivity.
      + simpl length in B. replace (g + S (length rest))%nat with (S g + length rest)%nat in B by lia. exact B.
      + intros w I. apply NA. right. exact I.
      + left. split; [discriminate|]. cbn [length]. rewrite <- E. f_equal. lia.
      + right. exists c2. split; auto. cbn [length after]. rewrite M. rewrite GE. exact E.
  Qed.
End Trace.

Theorem rays_end_where_they_should : forall rnd u eta, 0 <= u -> 0 <= eta -> rounds_within u eta rnd -> u <= / 1000000 -> eta <= u * / 1000000 ->
  forall K O dir, ray_by_ray K O -> optical rnd K O dir ->
  forall table (absorbing : Z -> Prop), NoDup (map fst table) ->
  (forall z s, In (z, s) table -> ~ absorbing z -> is_mirror rnd u eta K O dir s \/ is_glass rnd u eta K O dir s) ->
  forall fuel limit rays rows, n_trace K fuel table limit rays = Finished rows -> Forall (fun c : ncol K => n_gen c = 0%nat) rays ->
  (1 <= limit)%Z -> 512 * (IZR limit + 1) * u <= / 2 ->
  forall i c, nth_error rays i = Some c -> Rabs (vnorm (dir (n_beam c)) - 1) <= 512 * u ->
  (forall w, In w (of_ray i rows) -> ~ absorbing (nr_surf w)) ->
  Z.of_nat (length (of_ray i rows)) = limit \/
  exists c', after K O table (length (of_ray i rows)) (set_id K i c) = Some c' /\ snd (o_hit K O (n_beam c')) = (-1)%Z.
Proof.
  intros rnd u eta U0 E0 RW U1 E1 K O dir RR OP table absorbing ND TB fuel limit rays rows E F L B i c N D NA.
  pose proof (traced_alone K O RR _ _ _ _ _ E i c N) as P. destruct (trace_well_formed K _ _ _ _ _ F L E) as (G & _). destruct (G i) as (k & KL & GK).
  assert (LK : length (of_ray i rows) = k) by (rewrite <- (map_length nr_gen), GK; apply seq_length).
  destruct (path_ends rnd u eta U0 E0 RW U1 E1 K O dir OP table ND absorbing TB _ _ _ _ P 0%nat) as [(_ & X)|X]; auto.
  - constructor. exact D.
  - rewrite Forall_forall in F. exact (F c (nth_error_In _ _ N)).
  - cbn [Nat.add]. rewrite LK. assert (INR k <= IZR limit) by (rewrite INR_IZR_INZ; apply IZR_le; exact KL). nra.
Qed.
