(** * C114: Abbe numbers, and the cache they come from *)
From Coq Require Import Reals List Bool Arith Lia Lra.
Import ListNotations.
From Verif Require Import XR Arr Prim World Utils SpecUtils UtilProps GlassCache SpecGlassCache GlassCacheProps.
Open Scope R_scope.

(** As long as no coefficient is assigned to, no call can tell the cache from none: for any number of glasses and
    any order of the calls. *)
Theorem C114_cache_is_invisible_partial : forall cs, forallb (fun c => negb (assigns c)) cs = true ->
  match glass_run cs no_glasses, plain_run cs [] with
  | None, None => True
  | Some (s, vs), Some (gs, vs') => vs = vs' /\ gs = gl_objs s
  | _, _ => False
  end.
Proof. intros cs A. apply (current_run cs no_glasses A). intros k v []. Qed.
Print Assumptions C114_cache_is_invisible_partial.

(** Whatever is assigned: indices (so everything that is traced) are those of the coefficients at that moment. *)
Theorem C114_indices_are_current : forall cs,
  match glass_run cs no_glasses, plain_run cs [] with
  | None, None => True
  | Some (s, vs), Some (gs, vs') => gs = gl_objs s /\ length vs = length cs /\ length vs' = length cs /\
      forall i, (forall k, nth_error cs i <> Some (Abbe k)) -> nth_error vs i = nth_error vs' i
  | _, _ => False
  end.
Proof. intro cs. apply (objs_run cs no_glasses). Qed.
Print Assumptions C114_indices_are_current.

(** The [i]-th call, if it is [g.abbe()], returns the Abbe number for the coefficients that this glass has, or that
    it had after an earlier call. *)
Theorem C114_abbe_numbers_were_right_once : forall cs s vs i k v,
  glass_run cs no_glasses = Some (s, vs) -> nth_error cs i = Some (Abbe k) -> nth_error vs i = Some v ->
  exists j gs vs0 g, (j <= i)%nat /\ plain_run (firstn j cs) [] = Some (gs, vs0) /\ nth_error gs k = Some g /\ v = answer g.
Proof.
  intros cs s vs i k v R I V. refine (was_run cs [] no_glasses [[]] s vs _ _ _ _ R i k v I V).
  - discriminate.
  - split; [left; reflexivity|intros ? ? []].
  - exists []. reflexivity.
  - intros gs [<-|[]]. exists 0%nat, []. auto.
Qed.
Print Assumptions C114_abbe_numbers_were_right_once.

(** Exactly how long an old number is returned: until the numbers of a hundred other glasses were returned. *)
Theorem C114_old_numbers_last : forall cs s vs0 k s1 v p s2 vs g s3 w,
  glass_run cs no_glasses = Some (s, vs0) -> glass_step (Abbe k) s = Some (s1, Number v) ->
  glass_run p s1 = Some (s2, vs) -> forallb (fun c => negb (asks_abbe k c)) p = true ->
  nth_error (gl_objs s2) k = Some g -> glass_step (Abbe k) s2 = Some (s3, w) ->
  (others_returned 100%nat k p vs -> w = answer g) /\ (~ others_returned 100%nat k p vs -> w = Number v).
Proof. exact dropped_exactly. Qed.
Print Assumptions C114_old_numbers_last.

Lemma abbe_of : forall s, catalogue s -> forall nd nf nc,
  sellmeier_index s (5893/10000) = Fin nd -> sellmeier_index s (4861/10000) = Fin nf -> sellmeier_index s (6563/10000) = Fin nc -> nc < nf ->
  abbe (sellmeier_index s) = Fin ((nd - 1) / (nf - nc)).
Proof. intros s C nd nf nc A B D L. unfold abbe. rewrite A, B, D. simpl. destruct (Req_EM_T (nf + - nc) 0); [lra|]. reflexivity. Qed.
Lemma quotient_between : forall a b lo hi, 0 < b -> lo * b < a < hi * b -> lo < a / b < hi.
Proof. intros a b lo hi B [L H]. split; apply Rmult_lt_reg_r with b; auto; unfold Rdiv; rewrite Rmult_assoc, Rinv_l; lra. Qed.
Ltac near := unfold bk7, sf5; cbn [b1 b2 b3 c1 c2 c3]; lra.
Lemma abbe_bk7 : exists v, abbe (sellmeier_index bk7) = Fin v /\ 62 < v < 66.
Proof.
  destruct (index_near bk7 (5893/10000) (15166/10000) (15168/10000) bk7_ok ltac:(unfold visible; lra) ltac:(lra) ltac:(lra)) as (nd & D & BD); [near|].
  destruct (index_near bk7 (4861/10000) (15223/10000) (15225/10000) bk7_ok ltac:(unfold visible; lra) ltac:(lra) ltac:(lra)) as (nf & F & BF); [near|].
  destruct (index_near bk7 (6563/10000) (15142/10000) (15144/10000) bk7_ok ltac:(unfold visible; lra) ltac:(lra) ltac:(lra)) as (nc & C & BC); [near|].
  exists ((nd - 1) / (nf - nc)). split; [apply abbe_of; auto using bk7_ok; lra|]. apply quotient_between; lra.
Qed.
Lemma abbe_sf5 : exists v, abbe (sellmeier_index sf5) = Fin v /\ 31 < v < 33.
Proof.
  destruct (index_near sf5 (5893/10000) (16724/10000) (16726/10000) sf5_ok ltac:(unfold visible; lra) ltac:(lra) ltac:(lra)) as (nd & D & BD); [near|].
  destruct (index_near sf5 (4861/10000) (16874/10000) (16876/10000) sf5_ok ltac:(unfold visible; lra) ltac:(lra) ltac:(lra)) as (nf & F & BF); [near|].
  destruct (index_near sf5 (6563/10000) (16665/10000) (16667/10000) sf5_ok ltac:(unfold visible; lra) ltac:(lra) ltac:(lra)) as (nc & C & BC); [near|].
  exists ((nd - 1) / (nf - nc)). split; [apply abbe_of; auto using sf5_ok; lra|]. apply quotient_between; lra.
Qed.
Lemma req_false : forall a b, a <> b -> reqb a b = false.
Proof. intros a b N. unfold reqb. destruct (Req_EM_T a b); [contradiction|reflexivity]. Qed.
Lemma body_bk7 : abbe_body (SellmeierGlass bk7) = Some (abbe (sellmeier_index bk7)).
Proof. unfold abbe_body, resonant. rewrite !req_false by (unfold bk7; cbn [c1 c2 c3]; lra). reflexivity. Qed.
Lemma body_sf5 : abbe_body (SellmeierGlass sf5) = Some (abbe (sellmeier_index sf5)).
Proof. unfold abbe_body, resonant. rewrite !req_false by (unfold sf5; cbn [c1 c2 c3]; lra). reflexivity. Qed.

(** The number itself, of a glass that has not been asked before: it is (n_d - 1) / (n_F - n_C) ... *)
Theorem C114_the_abbe_number : forall cs s vs k c nd nf nc, glass_run cs no_glasses = Some (s, vs) -> ~ In (Abbe k) cs ->
  nth_error (gl_objs s) k = Some (SellmeierGlass c) ->
  (forall w, w = 4861/10000 \/ w = 5893/10000 \/ w = 6563/10000 -> w * w <> c1 c /\ w * w <> c2 c /\ w * w <> c3 c) ->
  sellmeier_index c (5893/10000) = Fin nd -> sellmeier_index c (4861/10000) = Fin nf -> sellmeier_index c (6563/10000) = Fin nc -> nf <> nc ->
  exists s', glass_step (Abbe k) s = Some (s', Number (Fin ((nd - 1) / (nf - nc)))).
Proof. exact abbe_first. Qed.
Print Assumptions C114_the_abbe_number.

(** ... and a glass of one index has none: dividing by the difference of its indices raises ZeroDivisionError, always *)
Theorem C114_one_index_has_no_abbe_number : forall cs s vs k n, glass_run cs no_glasses = Some (s, vs) -> nth_error (gl_objs s) k = Some (BasicGlass n) ->
  glass_step (Abbe k) s = Some (s, DivisionByZero).
Proof. exact basic_never. Qed.
Print Assumptions C114_one_index_has_no_abbe_number.

(** The full property, [C114_cache_is_invisible_partial] for all programs, is false: a glass with the
    coefficients of SF5 (about 32) still reports the number of the BK7 (about 64) it was. *)
Theorem C114_stale_abbe_number_refuted : exists s gs old new,
  glass_run [NewGlass (SellmeierGlass bk7); Abbe 0%nat; Assign 0%nat (fun _ => sf5); Abbe 0%nat] no_glasses = Some (s, [Nothing; Number (Fin old); Nothing; Number (Fin old)]) /\
  plain_run [NewGlass (SellmeierGlass bk7); Abbe 0%nat; Assign 0%nat (fun _ => sf5); Abbe 0%nat] [] = Some (gs, [Nothing; Number (Fin old); Nothing; Number (Fin new)]) /\
  62 < old < 66 /\ 31 < new < 33.
Proof.
  destruct abbe_bk7 as (old & O & BO), abbe_sf5 as (new & N & BN).
  do 2 eexists. exists old, new. split; [|split; [|auto]].
  - cbn [glass_run glass_step no_glasses gl_objs gl_cache app nth_error cached find]. rewrite body_bk7, O. reflexivity.
  - cbn [plain_run plain_step app nth_error list_upd assign answer]. unfold answer. rewrite body_bk7, body_sf5, O, N. reflexivity.
Qed.
Print Assumptions C114_stale_abbe_number_refuted.

(** The hypotheses of [C114_old_numbers_last] with no other glass: the number of BK7 is returned twice. *)
Example C114_twice : exists s s1 v s2, glass_run [NewGlass (SellmeierGlass bk7)] no_glasses = Some (s, [Nothing]) /\ glass_step (Abbe 0%nat) s = Some (s1, Number v) /\
  glass_run [Assign 0%nat (fun _ => sf5); IndexAt 0%nat (1/2)] s1 = Some (s2, [Nothing; Number (sellmeier_index sf5 (1/2))]) /\
  nth_error (gl_objs s2) 0%nat = Some (SellmeierGlass sf5) /\ ~ others_returned 100%nat 0%nat [Assign 0%nat (fun _ => sf5); IndexAt 0%nat (1/2)] [Nothing; Number (sellmeier_index sf5 (1/2))].
Proof.
  do 4 eexists. split; [reflexivity|]. split; [cbn [glass_step gl_objs app nth_error cached find gl_cache no_glasses]; rewrite body_bk7; reflexivity|]. split; [reflexivity|]. split; [reflexivity|].
  intros (ks & _ & L & K). destruct ks as [|j ks]; [discriminate|]. destruct (K j (or_introl eq_refl)) as (_ & i & x & A & _). destruct i as [|[|[|i]]]; discriminate.
Qed.

(** And with a hundred others: the glass that became SF5 reports the number of SF5. *)
Definition glass_from (gs : list glass_obj) : Prop := forall k, (0 < k <= 100)%nat -> nth_error gs k = Some (SellmeierGlass bk7).
Lemma asks_return : forall ks s, glass_from (gl_objs s) -> Forall (fun k => (0 < k <= 100)%nat) ks ->
  exists s' vs, glass_run (map Abbe ks) s = Some (s', vs) /\ gl_objs s' = gl_objs s /\ forall j, In j ks -> abbe_returned j (map Abbe ks) vs.
Proof.
  induction ks as [|k ks IH]; intros s G F; [exists s, []; cbn; repeat split; auto; intros j []|].
  inversion F as [|? ? Fk Fs]; subst. cbn [map glass_run].
  assert (E : exists s1 x, glass_step (Abbe k) s = Some (s1, Number x) /\ gl_objs s1 = gl_objs s).
  { cbn [glass_step]. rewrite (G k Fk). destruct (cached k (gl_cache s)) as [x|]; [|rewrite body_bk7]; do 2 eexists; split; reflexivity. }
  destruct E as (s1 & x & E & O). rewrite E. destruct (IH s1) as (s2 & vs & R & O2 & A); [rewrite O; exact G|exact Fs|]. rewrite R.
  exists s2, (Number x :: vs). split; [reflexivity|]. split; [congruence|]. intros j [->|J]; apply returned_cons; [left; split; eauto|right; auto].
Qed.
Example C114_a_hundred_others : exists s1 v s2 vs, glass_step (Abbe 0%nat) (Glasses (repeat (SellmeierGlass bk7) 101) []) = Some (s1, Number v) /\
  glass_run (repeat (NewGlass (SellmeierGlass bk7)) 101) no_glasses = Some (Glasses (repeat (SellmeierGlass bk7) 101) [], repeat Nothing 101) /\
  glass_run (Assign 0%nat (fun _ => sf5) :: map Abbe (seq 1 100)) s1 = Some (s2, vs) /\
  forallb (fun c => negb (asks_abbe 0%nat c)) (Assign 0%nat (fun _ => sf5) :: map Abbe (seq 1 100)) = true /\
  nth_error (gl_objs s2) 0%nat = Some (SellmeierGlass sf5) /\
  others_returned 100%nat 0%nat (Assign 0%nat (fun _ => sf5) :: map Abbe (seq 1 100)) vs.
Proof.
  assert (E : exists s1 v, glass_step (Abbe 0%nat) (Glasses (repeat (SellmeierGlass bk7) 101) []) = Some (s1, Number v) /\ gl_objs s1 = repeat (SellmeierGlass bk7) 101).
  { cbn [glass_step gl_objs gl_cache repeat nth_error cached find]. rewrite body_bk7. do 2 eexists. split; reflexivity. }
  destruct E as (s1 & v & E & O).
  assert (G : glass_from (list_upd (gl_objs s1) 0%nat (assign (fun _ => sf5)))).
  { intros k K. rewrite O. do 101 (destruct k as [|k]; [try lia; reflexivity|]). lia. }
  destruct (asks_return (seq 1 100) (Glasses (list_upd (gl_objs s1) 0%nat (assign (fun _ => sf5))) (gl_cache s1)) G) as (s2 & vs & R & O2 & A).
  { apply Forall_forall. intros k K. apply in_seq in K. lia. }
  exists s1, v, s2, (Nothing :: vs). split; [exact E|]. split; [reflexivity|]. split.
  - cbn [glass_run glass_step]. rewrite O at 1. cbn [repeat nth_error]. rewrite R. reflexivity.
  - split; [reflexivity|]. split.
    + rewrite O2. cbn [gl_objs]. rewrite O. reflexivity.
    + exists (seq 1 100). split; [apply seq_NoDup|]. split; [apply seq_length|]. intros j J. split; [apply in_seq in J; lia|]. apply returned_cons. right. apply A. exact J.
Qed.

(** A glass of index 3/2 beside one of BK7, which was asked before *)
Example C114_basic : exists s vs, glass_run [NewGlass (SellmeierGlass bk7); Abbe 0%nat; NewGlass (BasicGlass (3 / 2))] no_glasses = Some (s, vs) /\
  nth_error (gl_objs s) 1%nat = Some (BasicGlass (3 / 2)).
Proof. cbn [glass_run glass_step gl_objs app nth_error cached find gl_cache no_glasses]. rewrite body_bk7. do 2 eexists. split; reflexivity. Qed.
