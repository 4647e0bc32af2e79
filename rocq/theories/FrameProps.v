(** * FrameProps: objects that were never put together do not disturb one another *)
From Coq Require Import Reals List Bool ZArith Lra Lia.
Import ListNotations.
From Verif Require Import XR Arr Lin Prim Csg Surf World SpecWorld WorldFacts WorldFacts2 SpecApart Components FrameFacts.
Open Scope R_scope.

Lemma own_kept : forall (P Q : loc -> Prop) h h', own P h -> kept Q h h' -> (forall x, P x -> ~ Q x) -> own P h'.
Proof. intros P Q h h' O (_ & K) D x o G X. rewrite (K x (D x X)) in G. exact (O x o G X). Qed.
Lemma split_run : forall asort mine h cs h', never_together asort mine h cs h' ->
  own mine h -> own (fun l => ~ mine l) h -> own mine h' /\ own (fun l => ~ mine l) h'.
Proof.
  intros asort mine h cs h' T. induction T as [h|h c h1 cs h' L C T IH|h c h1 cs h' L C T IH]; intros A B; [split; assumption|..].
  - destruct (call_stays asort mine c h A) with (h' := h1) as (A1 & K1).
    + intros h2 E. rewrite (left_heap _ _ L) in E. injection E as <-. exact C.
    + exact (left_heap _ _ L).
    + apply IH; [exact A1|]. eapply own_kept; [exact B|exact K1|auto].
  - destruct (call_stays asort (fun l => ~ mine l) c h B) with (h' := h1) as (B1 & K1).
    + intros h2 E. rewrite (left_heap _ _ L) in E. injection E as <-. exact C.
    + exact (left_heap _ _ L).
    + apply IH; [|exact B1]. eapply own_kept; [exact A|exact K1|auto].
Qed.
Lemma own_empty : forall Q, own Q empty_heap.
Proof. intros Q x o G. unfold get, empty_heap in G; cbn in G. destruct x; discriminate. Qed.
Theorem strangers : forall asort mine cs h c h', never_together asort mine empty_heap cs h ->
  left_by (run_call asort c h) h' -> (forall l, concerns h c h' l -> ~ mine l) ->
  forall l, mine l -> get h' l = get h l.
Proof.
  intros asort mine cs h c h' T L C l M. destruct (split_run _ _ _ _ _ T (own_empty _) (own_empty _)) as (_ & B).
  destruct (call_stays asort (fun l => ~ mine l) c h B) with (h' := h') as (_ & _ & K).
  - intros h2 E. rewrite (left_heap _ _ L) in E. injection E as <-. exact C.
  - exact (left_heap _ _ L).
  - apply K. auto.
Qed.
(** ** programs that name later objects only *)
Definition later (n : nat) (l : loc) : Prop := (n <= l)%nat.
Lemma own_end : forall h, own (later (length (h_objs h))) h.
Proof. intros h x o G X. apply get_lt in G. unfold later in X. lia. Qed.
Lemma prog_later : forall asort n cs h r, own (later n) h -> (n <= length (h_objs h))%nat -> (forall c l, In c cs -> In l (names c) -> (n <= l)%nat) ->
  run_prog asort cs h = r -> stays (later n) h r.
Proof.
  intros asort n. induction cs as [|c cs IH]; intros h r O L N <-; [apply stays_ok; exact O|]. cbn [run_prog].
  assert (S : stays (later n) h (run_call asort c h)).
  { apply call_stays; [exact O|]. intros h' E l [I|I]; [exact (N c l (or_introl eq_refl) I)|unfold later; lia]. }
  intros h' E. destruct (res_heap_bind _ _ _ E) as [(h1 & E0 & E1)|(e & E0)].
  - destruct (S h1) as (O1 & K1); [rewrite E0; reflexivity|]. destruct (IH h1 (run_prog asort cs h1) O1) with (h' := h') as (O2 & K2); [destruct K1; lia|intros c' l I; apply N; right; exact I|reflexivity|exact E1|].
    split; [exact O2|]. eapply kept_trans; eauto.
  - apply S. rewrite E0. reflexivity.
Qed.
Lemma catching_later : forall asort n cs h h', own (later n) h -> (n <= length (h_objs h))%nat -> (forall c l, In c cs -> In l (names c) -> (n <= l)%nat) ->
  run_catching asort cs h = Some h' -> own (later n) h' /\ kept (later n) h h'.
Proof.
  intros asort n. induction cs as [|c cs IH]; intros h h' O L N E; cbn [run_catching] in E; [injection E as <-; split; [exact O|apply kept_refl]|].
  assert (S : stays (later n) h (run_call asort c h)).
  { apply call_stays; [exact O|]. intros h2 _ l [I|I]; [exact (N c l (or_introl eq_refl) I)|unfold later; lia]. }
  assert (exists h1, res_heap (run_call asort c h) = Some h1 /\ run_catching asort cs h1 = Some h') as (h1 & R & E1) by (destruct (run_call asort c h); [eexists; split; [reflexivity|exact E]..|discriminate]).
  destruct (S h1 R) as (O1 & K1). destruct (IH h1 h' O1) as (O2 & K2); [destruct K1; lia|intros c' l I; apply N; right; exact I|exact E1|]. split; [exact O2|eapply kept_trans; eauto].
Qed.
Theorem later_calls : forall asort cs h h', (forall c l, In c cs -> In l (names c) -> (length (h_objs h) <= l)%nat) ->
  run_catching asort cs h = Some h' -> forall l, (l < length (h_objs h))%nat -> get h' l = get h l.
Proof.
  intros asort cs h h' N E l L. destruct (catching_later asort _ cs h h' (own_end h) (le_n _) N E) as (_ & _ & K). apply K. unfold later. lia.
Qed.
Lemma shift_names : forall n c l, In l (names (shift n c)) -> (n <= l)%nat.
Proof.
  intros n [|p m|ms|g ms|op a b|l0 o|l0|l0] l I; cbn [shift names] in I; try destruct I as [<-|I]; try lia; try destruct I as [<-|I]; try lia; try destruct I;
    try (apply in_map_iff in I; destruct I as (x & <- & _); lia).
Qed.
Lemma shape_fuel_kept : forall n h h', kept (later n) h h' -> wf h -> forall f l, (l < n)%nat -> shape_fuel f h' l = shape_fuel f h l.
Proof.
  intros n h h' (_ & K) W. induction f as [|f IH]; intros l L; [reflexivity|]. cbn [shape_fuel]. rewrite (K l) by (unfold later; lia). destruct (get h l) as [o|] eqn:G; [|reflexivity].
  pose proof (W l o G) as X. unfold wfx in X. destruct (o_kind o) as [|p m|op a b|ms]; try reflexivity. destruct X as (_ & A & B & _). rewrite (IH a), (IH b) by lia. reflexivity.
Qed.
Lemma shape_fuel_more : forall h, wf h -> forall f g l, (l < f)%nat -> (l < g)%nat -> shape_fuel f h l = shape_fuel g h l.
Proof.
  intros h W. induction f as [|f IH]; intros g l F G; [lia|]. destruct g as [|g]; [lia|]. cbn [shape_fuel]. destruct (get h l) as [o|] eqn:GL; [|reflexivity].
  pose proof (W l o GL) as X. unfold wfx in X. destruct (o_kind o) as [|p m|op a b|ms]; try reflexivity. destruct X as (_ & A & B & _). rewrite (IH g a), (IH g b) by lia. reflexivity.
Qed.
(** a solid built earlier is seen as before *)
Theorem later_calls_shape : forall asort cs0 cs h h', run_prog asort cs0 empty_heap = Ok h -> (forall c l, In c cs -> In l (names c) -> (length (h_objs h) <= l)%nat) ->
  run_prog asort cs h = Ok h' -> forall l, (l < length (h_objs h))%nat -> shape_of h' l = shape_of h l.
Proof.
  intros asort cs0 cs h h' R0 N R l L.
  assert (W : wf h) by (eapply wf_run_prog; [apply wf_empty|exact R0]).
  destruct (prog_later asort _ cs h _ (own_end h) (le_n _) N R h' eq_refl) as (_ & K). unfold shape_of.
  rewrite (shape_fuel_kept _ _ _ K W) by exact L. apply shape_fuel_more; [exact W|destruct K; unfold depth; lia|unfold depth; lia].
Qed.
Lemma shape_fuel_strangers : forall (P Q : loc -> Prop) h h', kept Q h h' -> own P h -> (forall x, P x -> ~ Q x) -> forall f l, P l -> shape_fuel f h' l = shape_fuel f h l.
Proof.
  intros P Q h h' (_ & K) O D. induction f as [|f IH]; intros l L; [reflexivity|]. cbn [shape_fuel]. rewrite (K l (D l L)). destruct (get h l) as [o|] eqn:G; [|reflexivity].
  pose proof (proj1 (O l o G L)) as C. destruct (o_kind o) as [|p m|op a b|ms]; try reflexivity. rewrite (IH a), (IH b); [reflexivity|apply C; right; left; reflexivity|apply C; left; reflexivity].
Qed.
Theorem strangers_shape : forall asort mine cs h c h', run_prog asort cs empty_heap = Ok h -> never_together asort mine empty_heap cs h ->
  left_by (run_call asort c h) h' -> (forall l, concerns h c h' l -> ~ mine l) ->
  forall l, mine l -> (l < length (h_objs h))%nat -> shape_of h' l = shape_of h l.
Proof.
  intros asort mine cs h c h' R T L C l M LL. destruct (split_run _ _ _ _ _ T (own_empty _) (own_empty _)) as (A & B).
  assert (W : wf h) by (eapply wf_run_prog; [apply wf_empty|exact R]).
  destruct (call_stays asort (fun l => ~ mine l) c h B) with (h' := h') as (_ & K).
  - intros h2 E. rewrite (left_heap _ _ L) in E. injection E as <-. exact C.
  - exact (left_heap _ _ L).
  - unfold shape_of. rewrite (shape_fuel_strangers mine _ h h' K A) by auto. apply shape_fuel_more; [exact W|destruct K; unfold depth; lia|unfold depth; lia].
Qed.
(** ** two benches side by side *)
Lemma bench_one : forall asort n cs h h1, run_prog asort cs h = Ok h1 -> (length (h_objs h1) <= n)%nat -> (forall c l, In c cs -> In l (names c) -> (l < n)%nat) ->
  never_together asort (fun l => (l < n)%nat) h cs h1.
Proof.
  intros asort n. induction cs as [|c cs IH]; intros h h1 R L N; cbn [run_prog] in R; [injection R as <-; constructor|].
  destruct (run_call asort c h) as [h2|e h2|] eqn:E; try discriminate. cbn [bind] in R.
  assert (G : (length (h_objs h2) <= length (h_objs h1))%nat).
  { clear - R. revert h2 R. induction cs as [|c cs IH]; intros h2 R; cbn [run_prog] in R; [injection R as <-; lia|]. destruct (run_call asort c h2) as [h3|e h3|] eqn:E; try discriminate. cbn [bind] in R.
    pose proof (IH h3 R). assert (length (h_objs h2) <= length (h_objs h3))%nat by (apply (call_grows asort c); rewrite E; reflexivity). lia. }
  apply (nt_mine asort _ h c h2); [left; exact E| |apply IH; auto; intros c' l I; apply N; right; exact I].
  intros l [I|I]; [exact (N c l (or_introl eq_refl) I)|lia].
Qed.
Lemma bench_two : forall asort n cs h h1, run_prog asort cs h = Ok h1 -> (n <= length (h_objs h))%nat -> (forall c l, In c cs -> In l (names c) -> (n <= l)%nat) ->
  never_together asort (fun l => (l < n)%nat) h cs h1.
Proof.
  intros asort n. induction cs as [|c cs IH]; intros h h1 R L N; cbn [run_prog] in R; [injection R as <-; constructor|].
  destruct (run_call asort c h) as [h2|e h2|] eqn:E; try discriminate. cbn [bind] in R.
  assert (G : (length (h_objs h) <= length (h_objs h2))%nat) by (apply (call_grows asort c); rewrite E; reflexivity).
  apply (nt_other asort _ h c h2); [left; exact E| |apply IH; auto; [lia|intros c' l I; apply N; right; exact I]].
  intros l [I|I]; [pose proof (N c l (or_introl eq_refl) I); lia|lia].
Qed.
Lemma never_app : forall asort mine cs1 cs2 h h1 h2, never_together asort mine h cs1 h1 -> never_together asort mine h1 cs2 h2 -> never_together asort mine h (cs1 ++ cs2) h2.
Proof.
  intros asort mine cs1 cs2 h h1 h2 A B. induction A as [h|h c h3 cs h' L C T IH|h c h3 cs h' L C T IH]; [exact B|..]; cbn [app].
  - eapply nt_mine; eauto.
  - eapply nt_other; eauto.
Qed.
Lemma never_swap : forall asort (P Q : loc -> Prop) h cs h', (forall l, Q l <-> ~ P l) -> (forall l, P l -> ~ Q l) -> never_together asort P h cs h' -> never_together asort Q h cs h'.
Proof.
  intros asort P Q h cs h' E D T. induction T as [h|h c h3 cs h' L C T IH|h c h3 cs h' L C T IH]; [constructor|..].
  - eapply nt_other; [exact L| |exact IH]. intros l X. apply D. exact (C l X).
  - eapply nt_mine; [exact L| |exact IH]. intros l X. apply E. exact (C l X).
Qed.
