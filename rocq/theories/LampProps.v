(** * LampProps: static lamps and their shared cache *)
From Coq Require Import Reals Lra Lia List Bool ZArith Permutation.
Import ListNotations.
From Verif Require Import XR Lin LinFacts SpecOptics OpsFacts World Tracer Sources SpecSources SourceFacts SourceProps.
Open Scope R_scope.

Lemma key_eqb_eq : forall a b, key_eqb a b = true <-> a = b.
Proof.
  intros [a1 a2] [b1 b2]. unfold key_eqb; simpl. rewrite andb_true_iff, !Nat.eqb_eq. split; [intros [-> ->]; auto|intros E; injection E; auto].
Qed.
Lemma key_eqb_refl : forall a, key_eqb a a = true.
Proof. intros. apply key_eqb_eq. reflexivity. Qed.
Lemma key_eqb_neq : forall a b, key_eqb a b = false <-> a <> b.
Proof. intros. rewrite <- key_eqb_eq. destruct (key_eqb a b); split; congruence. Qed.

Lemma find_app_hit : forall k r pre post, ~ In k (map fst pre) -> cache_find k (pre ++ (k, r) :: post) = Some r.
Proof.
  induction pre as [|[k' r'] pre IH]; intros post N; simpl.
  - rewrite key_eqb_refl. reflexivity.
  - destruct (key_eqb k k') eqn:E; [apply key_eqb_eq in E; subst; exfalso; apply N; left; auto|].
    apply IH. intros I; apply N; right; auto.
Qed.
Lemma find_none_notin : forall k c, cache_find k c = None -> ~ In k (map fst c).
Proof.
  induction c as [|[k' r'] c IH]; simpl; intros F; [tauto|].
  destruct (key_eqb k k') eqn:E; [discriminate|]. apply key_eqb_neq in E. intros [I|I]; [congruence|]. apply IH; auto.
Qed.
Lemma find_in : forall k c r, cache_find k c = Some r -> In (k, r) c.
Proof.
  induction c as [|[k' r'] c IH]; simpl; intros r F; [discriminate|].
  destruct (key_eqb k k') eqn:E; [apply key_eqb_eq in E; subst; injection F as ->; left; auto|right; auto].
Qed.
Lemma remove_app : forall k a b, cache_remove k (a ++ b) = cache_remove k a ++ cache_remove k b.
Proof. intros. unfold cache_remove. apply filter_app. Qed.
Lemma remove_keys : forall k c x, In x (map fst (cache_remove k c)) -> In x (map fst c) /\ x <> k.
Proof.
  intros k c x H. apply in_map_iff in H. destruct H as [[k' r'] [E I]]. simpl in E; subst k'.
  apply filter_In in I. destruct I as [I J]. split; [apply in_map_iff; eexists; split; [|exact I]; reflexivity|].
  apply negb_true_iff, key_eqb_neq in J. simpl in J. congruence.
Qed.
Lemma remove_nodup : forall k c, NoDup (map fst c) -> NoDup (map fst (cache_remove k c)).
Proof.
  induction c as [|[k' r'] c IH]; simpl; intros N; [constructor|]. inversion N; subst.
  destruct (key_eqb k k'); simpl; auto. constructor; auto. intros I. apply remove_keys in I. tauto.
Qed.

Lemma list_upd_length : forall {A} (l : list A) i f, length (list_upd l i f) = length l.
Proof. induction l as [|x l IH]; intros [|i] f; simpl; auto. Qed.
Lemma list_upd_other : forall {A} (l : list A) i j f, i <> j -> nth_error (list_upd l i f) j = nth_error l j.
Proof. induction l as [|x l IH]; intros [|i] [|j] f N; simpl; auto; try congruence. Qed.

Section Cache.
  Variable rnd : nat -> R.

  Lemma step_miss : forall s i n x, nth_error (ls_lamps s) i = Some x -> cache_find (i, n) (ls_cache s) = None ->
    lamp_step rnd (Generate i n) s =
      (let g := generate_rays rnd (l_source x) (l_wl x) (l_world x) (ls_pos s) n in
       (Lamps (ls_lamps s) (snd g) (firstn cache_size (((i, n), fst g) :: ls_cache s)), Some (fst g))).
  Proof.
    intros s i n x L F. unfold lamp_step. rewrite L, F.
    destruct (generate_rays rnd (l_source x) (l_wl x) (l_world x) (ls_pos s) n); reflexivity.
  Qed.
  Lemma step_hit : forall s i n x r, nth_error (ls_lamps s) i = Some x -> cache_find (i, n) (ls_cache s) = Some r ->
    lamp_step rnd (Generate i n) s =
      (Lamps (ls_lamps s) (ls_pos s) (((i, n), r) :: cache_remove (i, n) (ls_cache s)), Some r).
  Proof. intros s i n x r L F. unfold lamp_step. rewrite L, F. reflexivity. Qed.

  (** The entry of [k] is in the cache, behind entries of keys in [l] only. *)
  Definition held (k : key) (r : rays_out) (l : list key) (s : lamps) : Prop :=
    (exists x, nth_error (ls_lamps s) (fst k) = Some x) /\
    exists pre post, ls_cache s = pre ++ (k, r) :: post /\ ~ In k (map fst pre) /\
      NoDup (map fst pre) /\ incl (map fst pre) l.

  Lemma firstn_keep : forall {A} (pre : list A) x post b, (length pre <= b)%nat ->
    firstn (S b) (pre ++ x :: post) = pre ++ x :: firstn (b - length pre) post.
  Proof.
    induction pre as [|y pre IH]; intros x post b L; simpl.
    - rewrite Nat.sub_0_r. reflexivity.
    - f_equal. simpl in L. destruct b as [|b]; [lia|]. rewrite IH by lia. reflexivity.
  Qed.

  Lemma held_step : forall k r l c s, (length l <= 9)%nat -> incl (other_requests (fst k) (snd k) [c]) l ->
    held k r l s -> held k r l (fst (lamp_step rnd c s)).
  Proof.
    intros k r l c s L I [[x X] [pre [post [E [N [D J]]]]]]. destruct c as [w le a wl|j m|j t|j wl].
    - split; [|exists pre, post; auto]. simpl. exists x. rewrite nth_error_app1; auto.
      apply nth_error_Some. congruence.
    - destruct (nth_error (ls_lamps s) j) as [y|] eqn:Y.
      2:{ unfold lamp_step. rewrite Y. split; [exists x; auto|exists pre, post; auto]. }
      destruct (key_eqb k (j, m)) eqn:K.
      + apply key_eqb_eq in K. subst k. rewrite (step_hit s j m y r Y) by (rewrite E; apply find_app_hit; auto).
        split; [exists y; auto|]. exists [], (cache_remove (j, m) (ls_cache s)). simpl.
        split; [reflexivity|]. split; [tauto|]. split; [constructor|]. intros z [].
      + assert (In (j, m) l).
        { apply I. unfold other_requests. simpl. destruct k; simpl fst in *; simpl snd in *. rewrite K. left; auto. }
        destruct (cache_find (j, m) (ls_cache s)) as [r'|] eqn:F.
        * rewrite (step_hit s j m y r' Y F). split; [exists x; auto|]. cbn [ls_cache fst].
          exists (((j, m), r') :: cache_remove (j, m) pre), (cache_remove (j, m) post). rewrite E, remove_app.
          simpl cache_remove at 2. unfold cache_remove at 2. cbn [filter fst].
          assert (K' : key_eqb (j, m) k = false) by (apply key_eqb_neq; apply key_eqb_neq in K; congruence).
          rewrite K'. cbn [negb]. split; [reflexivity|]. cbn [map fst]. split; [|split].
          -- intros [Z|Z]; [apply key_eqb_neq in K; congruence|]. apply remove_keys in Z. tauto.
          -- constructor; [|apply remove_nodup; auto]. intros Z. apply remove_keys in Z. tauto.
          -- intros z [Z|Z]; [subst; auto|]. apply remove_keys in Z. apply J; tauto.
        * rewrite (step_miss s j m y Y F). split; [exists x; auto|]. cbn [ls_cache fst].
          set (g := fst (generate_rays rnd (l_source y) (l_wl y) (l_world y) (ls_pos s) m)).
          rewrite E. assert (NI : ~ In (j, m) (map fst pre)).
          { apply find_none_notin in F. rewrite E, map_app in F. intros Z; apply F, in_or_app; auto. }
          assert (ND : NoDup ((j, m) :: map fst pre)) by (constructor; auto).
          assert (IL : incl ((j, m) :: map fst pre) l) by (intros z [Z|Z]; [subst; auto|auto]).
          assert (LE : (length pre <= 8)%nat).
          { apply (NoDup_incl_length ND) in IL. simpl in IL. rewrite map_length in IL. unfold key in *. lia. }
          change (((j, m), g) :: pre ++ (k, r) :: post) with ((((j, m), g) :: pre) ++ (k, r) :: post).
          unfold cache_size. rewrite firstn_keep by (cbn [length]; apply le_n_S; exact LE).
          exists (((j, m), g) :: pre). eexists. split; [reflexivity|]. cbn [map fst].
          split; [intros [Z|Z]; [apply key_eqb_neq in K; congruence|tauto]|]. split; auto.
    - split; [|exists pre, post; auto]. simpl. destruct (Nat.eq_dec j (fst k)) as [->|NE].
      + assert (H : nth_error (list_upd (ls_lamps s) (fst k) (fun x0 => MkLamp (l_source x0) (l_wl x0) (mmul t (l_world x0)))) (fst k) <> None).
        { apply nth_error_Some. rewrite list_upd_length. apply nth_error_Some. congruence. }
        destruct (nth_error _ _) as [z|] in H |- *; [exists z; auto|congruence].
      + exists x. rewrite list_upd_other; auto.
    - split; [|exists pre, post; auto]. simpl. destruct (Nat.eq_dec j (fst k)) as [->|NE].
      + assert (H : nth_error (list_upd (ls_lamps s) (fst k) (fun x0 => MkLamp (l_source x0) wl (l_world x0))) (fst k) <> None).
        { apply nth_error_Some. rewrite list_upd_length. apply nth_error_Some. congruence. }
        destruct (nth_error _ _) as [z|] in H |- *; [exists z; auto|congruence].
      + exists x. rewrite list_upd_other; auto.
  Qed.
  Lemma held_run : forall k r l cs s, (length l <= 9)%nat -> incl (other_requests (fst k) (snd k) cs) l ->
    held k r l s -> held k r l (lamp_run rnd cs s).
  Proof.
    intros k r l cs. induction cs as [|c cs IH]; intros s L I H; simpl; auto.
    unfold other_requests in I. simpl in I. apply IH; auto.
    - intros z Z. apply I, in_or_app. right. exact Z.
    - apply held_step; auto. intros z Z. apply I, in_or_app. left. unfold other_requests in Z. simpl in Z.
      rewrite app_nil_r in Z. exact Z.
  Qed.
  Lemma held_answer : forall i n r l s, held (i, n) r l s -> answer rnd s i n = Some r.
  Proof.
    intros i n r l s [[x X] [pre [post [E [N _]]]]]. unfold answer.
    rewrite (step_hit s i n x r X); [reflexivity|]. rewrite E. apply find_app_hit; auto.
  Qed.
  Lemma answered_held : forall i n r s, answer rnd s i n = Some r -> held (i, n) r [] (fst (lamp_step rnd (Generate i n) s)).
  Proof.
    intros i n r s A. unfold answer in A.
    destruct (nth_error (ls_lamps s) i) as [x|] eqn:X; [|unfold lamp_step in A; rewrite X in A; discriminate].
    destruct (cache_find (i, n) (ls_cache s)) as [r'|] eqn:F.
    - rewrite (step_hit s i n x r' X F) in *. injection A as ->. split; [exists x; auto|].
      exists [], (cache_remove (i, n) (ls_cache s)). repeat split; simpl; auto; [constructor|intros z []].
    - rewrite (step_miss s i n x X F) in *. injection A as A. split; [exists x; auto|]. cbn [ls_cache fst]. rewrite A.
      exists [], (firstn 9 (ls_cache s)). repeat split; simpl; auto; [constructor|intros z []].
  Qed.
  Lemma held_weaken : forall k r l l' s, incl l l' -> held k r l s -> held k r l' s.
  Proof.
    intros k r l l' s I [X [pre [post [E [N [D J]]]]]]. split; auto. exists pre, post. repeat split; auto.
    intros z Z. apply I, J, Z.
  Qed.
  Lemma repeats_while_cached : forall s i n r cs, answer rnd s i n = Some r -> at_most 9 (other_requests i n cs) ->
    answer rnd (lamp_run rnd (Generate i n :: cs) s) i n = Some r.
  Proof.
    intros s i n r cs A [l [L I]]. apply (held_answer i n r l). simpl. apply held_run; auto.
    apply (held_weaken _ _ []); [intros z []|]. apply answered_held, A.
  Qed.

  (** ** Placement *)
  Definition fresh_entries (i : nat) (s : lamps) : Prop :=
    forall n r, In ((i, n), r) (ls_cache s) -> exists x, nth_error (ls_lamps s) i = Some x /\ emitted_here rnd x n r.
  Lemma firstn_incl : forall {A} b (l : list A) x, In x (firstn b l) -> In x l.
  Proof. induction b as [|b IH]; intros [|y l] x; simpl; try tauto. intros [H|H]; auto. Qed.
  Lemma fresh_step : forall i c s,
    match c with MoveLamp j _ | SetWavelength j _ => j <> i | _ => True end ->
    fresh_entries i s -> fresh_entries i (fst (lamp_step rnd c s)).
  Proof.
    intros i c s U H n r In0. destruct c as [w le a wl|j m|j t|j wl]; simpl in U.
    - destruct (H n r In0) as [x [X Y]]. exists x. split; auto. simpl. rewrite nth_error_app1; auto. apply nth_error_Some; congruence.
    - destruct (nth_error (ls_lamps s) j) as [y|] eqn:Y.
      2:{ unfold lamp_step in *. rewrite Y in *. exact (H n r In0). }
      destruct (cache_find (j, m) (ls_cache s)) as [r'|] eqn:F.
      + rewrite (step_hit s j m y r' Y F) in *. simpl in In0. destruct In0 as [E|E].
        * injection E as <- <- <-. apply find_in in F. exact (H _ _ F).
        * apply filter_In in E. exact (H _ _ (proj1 E)).
      + rewrite (step_miss s j m y Y F) in *. cbn [ls_cache fst] in In0. apply firstn_incl in In0. destruct In0 as [E|E].
        * injection E as <- <- <-. exists y. split; auto. exists (ls_pos s). reflexivity.
        * exact (H _ _ E).
    - destruct (H n r In0) as [x [X Y]]. exists x. split; auto. simpl. rewrite list_upd_other; auto.
    - destruct (H n r In0) as [x [X Y]]. exists x. split; auto. simpl. rewrite list_upd_other; auto.
  Qed.
  Definition no_entries (i : nat) (s : lamps) : Prop := forall n r, ~ In ((i, n), r) (ls_cache s).
  Lemma no_entries_step : forall i c s, (forall n, c <> Generate i n) -> no_entries i s ->
    no_entries i (fst (lamp_step rnd c s)).
  Proof.
    intros i c s U H n r In0. destruct c as [w le a wl|j m|j t|j wl]; try exact (H n r In0).
    destruct (nth_error (ls_lamps s) j) as [y|] eqn:Y.
    2:{ unfold lamp_step in *. rewrite Y in *. exact (H n r In0). }
    destruct (cache_find (j, m) (ls_cache s)) as [r'|] eqn:F.
    - rewrite (step_hit s j m y r' Y F) in *. simpl in In0. destruct In0 as [E|E].
      + injection E as <- <- <-. exact (U m eq_refl).
      + apply filter_In in E. exact (H _ _ (proj1 E)).
    - rewrite (step_miss s j m y Y F) in *. cbn [ls_cache fst] in In0. apply firstn_incl in In0. destruct In0 as [E|E].
      + injection E as <- <- <-. exact (U m eq_refl).
      + exact (H _ _ E).
  Qed.
  Lemma run_app : forall a b s, lamp_run rnd (a ++ b) s = lamp_run rnd b (lamp_run rnd a s).
  Proof. induction a as [|c a IH]; intros; simpl; auto. Qed.
  Lemma no_entries_run : forall i cs s, never_asked i cs -> no_entries i s -> no_entries i (lamp_run rnd cs s).
  Proof.
    induction cs as [|c cs IH]; intros s N H; simpl; auto. apply IH.
    - intros n I. apply (N n). right; auto.
    - apply no_entries_step; auto. intros n E. apply (N n). left; auto.
  Qed.
  Lemma fresh_run : forall i cs s, untouched i cs -> fresh_entries i s -> fresh_entries i (lamp_run rnd cs s).
  Proof.
    induction cs as [|c cs IH]; intros s N H; simpl; auto. inversion N; subst. apply IH; auto. apply fresh_step; auto.
  Qed.
  Lemma unmoved_matches : forall i n r cs1 cs2, never_asked i cs1 -> untouched i cs2 ->
    let s := lamp_run rnd (cs1 ++ cs2) no_lamps in
    answer rnd s i n = Some r -> exists x, nth_error (ls_lamps s) i = Some x /\ emitted_here rnd x n r.
  Proof.
    intros i n r cs1 cs2 N U s A.
    assert (F : fresh_entries i s).
    { unfold s. rewrite run_app. apply fresh_run; auto. intros m q I. exfalso.
      apply (no_entries_run i cs1 no_lamps N) in I; auto. intros ? ? []. }
    unfold answer in A. destruct (nth_error (ls_lamps s) i) as [x|] eqn:X; [|unfold lamp_step in A; rewrite X in A; discriminate].
    destruct (cache_find (i, n) (ls_cache s)) as [r'|] eqn:C.
    - rewrite (step_hit s i n x r' X C) in A. injection A as ->. apply find_in in C. destruct (F _ _ C) as [y [Y Z]].
      exists x. split; auto. congruence.
    - rewrite (step_miss s i n x X C) in A. injection A as A. exists x. split; auto. exists (ls_pos s). auto.
  Qed.
End Cache.

(** ** Counterexamples *)
Definition shift5 : mat := M4 (V4 1 0 0 5) (V4 0 1 0 0) (V4 0 0 1 0) (V4 0 0 0 1).
Lemma lamp_one : forall rnd p, exists c, fst (generate_rays rnd (Lamp 1 1 90) (633/1000) mid p 1) = [Some c] /\ vx (origin (c_ray c)) = 0 /\
  vy (origin (c_ray c)) = rnd (p + 2)%nat - 1/2.
Proof.
  intros. rewrite generate_eq, lamp_local. cbn [seq map]. set (t := lamp_theta _ _ _ _). set (f := lamp_phi _ _ _ _). cbv zeta.
  assert (U : unit (vector (cos t) (sin t * cos f) (sin t * sin f))).
  { unfold unit, vdot, vector; simpl. pose proof (sc1 t). pose proof (sc1 f).
    replace (cos t * cos t + sin t * cos f * (sin t * cos f) + sin t * sin f * (sin t * sin f) + 0 * 0)
      with (cos t * cos t + sin t * sin t * (sin f * sin f + cos f * cos f)) by ring. rewrite H0. lra. }
  rewrite place_mid by exact U. eexists. split; [reflexivity|]. split; [reflexivity|].
  cbn [c_ray plain origin point vy]. replace (p + 2 * 1 + 0)%nat with (p + 2)%nat by lia. ring.
Qed.
Definition moved_history : list lamp_call := [NewLamp 1 1 90 (633/1000); Generate 0 1; MoveLamp 0 shift5].
Lemma moved_lamp_case : forall rnd, exists r x,
  let s := lamp_run rnd moved_history no_lamps in
  answer rnd s 0 1 = Some r /\ nth_error (ls_lamps s) 0 = Some x /\ ~ emitted_here rnd x 1 r.
Proof.
  intros rnd. destruct (lamp_one rnd 0) as [c [E [X _]]].
  set (x := MkLamp (Lamp 1 1 90) (633/1000) mid).
  assert (S : lamp_run rnd moved_history no_lamps =
    Lamps [MkLamp (Lamp 1 1 90) (633/1000) (mmul shift5 mid)]
          (snd (generate_rays rnd (Lamp 1 1 90) (633/1000) mid 0 1)) [((0, 1)%nat, [Some c])]).
  { unfold moved_history. cbn [lamp_run].
    change (fst (lamp_step rnd (NewLamp 1 1 90 (633/1000)) no_lamps)) with (Lamps [x] 0 []).
    rewrite (step_miss rnd (Lamps [x] 0 []) 0%nat 1%nat x eq_refl eq_refl). cbv zeta.
    cbn [fst ls_lamps ls_cache ls_pos x l_source l_wl l_world firstn cache_size]. rewrite E. reflexivity. }
  cbv zeta. rewrite S. clear S.
  eexists; eexists; split; [|split; [reflexivity|]].
  - unfold answer, lamp_step. cbn. reflexivity.
  - intros [p H]. cbn [l_source l_wl l_world] in H. rewrite generate_eq, lamp_local in H. cbn [seq map] in H.
    injection H as H. unfold place_ray in H. cbn in H.
    destruct (vnormalize _) as [d|] in H; [|discriminate]. injection H as H. subst c.
    rewrite mmul_mid_r in X. unfold ray_map, mapply, vdot in X. cbn -[Rplus Rmult IZR] in X. lra.
Qed.
(** Eleven different requests in a row, then the first again *)
Definition eleven : list lamp_call := map (Generate 0) [1; 2; 3; 4; 5; 6; 7; 8; 9; 10; 11]%nat.
Definition half_or_none (i : nat) : R := if Nat.ltb i 4 then 0 else 1 / 2.
Lemma half_sampler : sampler half_or_none.
Proof. intros i. unfold half_or_none. destruct (Nat.ltb i 4); lra. Qed.
Lemma evicted_case : exists r r',
  let s := lamp_run half_or_none [NewLamp 1 1 90 (633/1000)] no_lamps in
  answer half_or_none s 0 1 = Some r /\
  answer half_or_none (lamp_run half_or_none eleven s) 0 1 = Some r' /\ r <> r'.
Proof.
  set (rnd := half_or_none).
  assert (P : forall p n, snd (generate_rays rnd (Lamp 1 1 90) (633/1000) mid p n) = (p + 4 * n)%nat).
  { intros. unfold generate_rays. pose proof (random_state rnd (Lamp 1 1 90) (633/1000) p n).
    destruct (local_rays rnd (Lamp 1 1 90) (633/1000) p n). exact H. }
  destruct (lamp_one rnd 0) as [c [E [_ Y]]]. destruct (lamp_one rnd 264) as [c' [E' [_ Y']]].
  exists [Some c], [Some c']. cbv zeta. set (x := MkLamp (Lamp 1 1 90) (633/1000) mid).
  set (s := lamp_run rnd [NewLamp 1 1 90 (633/1000)] no_lamps).
  assert (S0 : s = Lamps [x] 0 []) by reflexivity. rewrite S0. clear s S0.
  assert (ST : forall p n c, cache_find (0%nat, n) c = None ->
    fst (lamp_step rnd (Generate 0 n) (Lamps [x] p c)) =
    Lamps [x] (p + 4 * n)%nat (firstn cache_size (((0%nat, n), fst (generate_rays rnd (Lamp 1 1 90) (633/1000) mid p n)) :: c))).
  { intros p n q F. rewrite (step_miss rnd (Lamps [x] p q) 0%nat n x eq_refl F). cbn [fst]. rewrite <- P. reflexivity. }
  split; [|split].
  - unfold answer. rewrite (step_miss rnd (Lamps [x] 0 []) 0%nat 1%nat x eq_refl eq_refl). cbn [snd]. cbn [ls_pos l_source l_wl l_world x]. rewrite E. reflexivity.
  - unfold eleven. cbn [map]. unfold lamp_run. repeat (rewrite ST by reflexivity; cbn [firstn cache_size Nat.add Nat.mul]).
    unfold answer. match goal with |- context [lamp_step rnd _ ?s0] => rewrite (step_miss rnd s0 0%nat 1%nat x eq_refl eq_refl) end. cbn [snd]. cbn [ls_pos l_source l_wl l_world x]. rewrite <- E'. reflexivity.
  - intros Q. injection Q as Q. subst c'. rewrite Y in Y'. unfold rnd, half_or_none in Y'. simpl in Y'. lra.
Qed.

Lemma lamp_uniform : forall rnd w l a wl p n t, sampler rnd -> 0 < a <= 180 -> 0 <= t <= radians a -> exists rays,
  emits rnd (Lamp w l a) wl mid p n rays /\ length rays = n /\
  (forall k c, nth_error rays k = Some c -> exists theta,
     at_angle (direction (c_ray c)) x_axis theta /\
     (theta <= t <-> rnd (p + k)%nat <= (1 - cos t) / (1 - cos (radians a))) /\
     direction (c_ray c) = vector (cos theta) (sin theta * cos (2 * PI * rnd (p + n + k)%nat))
                                              (sin theta * sin (2 * PI * rnd (p + n + k)%nat))).
Proof.
  intros rnd w l a wl p n t S A T. assert (M := radians_range a ltac:(lra)).
  assert (U : forall t f, unit (vector (cos t) (sin t * cos f) (sin t * sin f))).
  { intros t0 f. unfold unit, vdot, vector; simpl. pose proof (sc1 t0). pose proof (sc1 f).
    replace (cos t0 * cos t0 + sin t0 * cos f * (sin t0 * cos f) + sin t0 * sin f * (sin t0 * sin f) + 0 * 0)
      with (cos t0 * cos t0 + sin t0 * sin t0 * (sin f * sin f + cos f * cos f)) by ring. rewrite H0. lra. }
  eexists; split; [|split].
  - apply emits_local; [apply lamp_local|]. intros i Hi. cbn. apply U.
  - rewrite map_length, seq_length. reflexivity.
  - intros k c H. apply nth_map_seq in H. destruct H as [K E]; subst c.
    exists (lamp_theta rnd (radians a) p k). split; [|split].
    + apply angle_of; [apply U| |reflexivity]. apply acos_bound.
    + unfold lamp_theta. apply lamp_cdf; auto. pose proof PI_RGT_0. unfold radians in *. split; [nra|lra].
    + cbn. unfold lamp_phi. replace (2 * PI * rnd (p + n + k)%nat) with (rnd (p + n + k)%nat * (2 * PI)) by ring. reflexivity.
Qed.
