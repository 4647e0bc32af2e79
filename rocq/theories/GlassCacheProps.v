(** * GlassCacheProps: the cache of Abbe numbers *)
From Coq Require Import Reals List Bool Arith Lia Lra.
Import ListNotations.
From Verif Require Import XR Arr Prim World WorldFacts Utils GlassCache SpecGlassCache.
Open Scope R_scope.

Local Opaque cache_size.
Definition keys (c : cache) : list nat := map fst c.
Lemma cached_some : forall k c v, cached k c = Some v -> In (k, v) c.
Proof.
  intros k c v E. unfold cached in E. destruct (find _ c) as [[j x]|] eqn:F; [|discriminate]. injection E as <-.
  apply find_some in F as [I Q]. apply Nat.eqb_eq in Q. cbn in Q. subst j. exact I.
Qed.
Lemma cached_none : forall k c, cached k c = None <-> ~ In k (keys c).
Proof.
  intros k c. unfold cached. destruct (find _ c) as [[j x]|] eqn:F.
  - split; [discriminate|]. apply find_some in F as [I Q]. apply Nat.eqb_eq in Q. cbn in Q. subst j. intro N. destruct N. apply in_map_iff. exists (k, x). auto.
  - split; [|reflexivity]. intros _ I. apply in_map_iff in I as ((j & x) & <- & I). pose proof (find_none _ _ F _ I) as Q. cbn in Q. rewrite Nat.eqb_refl in Q. discriminate.
Qed.
Lemma cached_in : forall k c v, NoDup (keys c) -> In (k, v) c -> cached k c = Some v.
Proof.
  intros k c v N I. destruct (cached k c) as [w|] eqn:E.
  - apply cached_some in E. f_equal. clear -N I E. induction c as [|[j x] c IH]; [destruct I|]. cbn in N. inversion N as [|? ? N1 N2]; subst.
    assert (O : forall y, In (k, y) c -> In k (keys c)) by (intros y Y; apply in_map_iff; exists (k, y); auto).
    destruct I as [I|I], E as [E|E]; [congruence| | |auto].
    + injection I as -> ->. destruct (N1 (O _ E)).
    + injection E as -> ->. destruct (N1 (O _ I)).
  - apply cached_none in E. destruct E. apply in_map_iff. exists (k, v). auto.
Qed.
Lemma keys_without : forall j k c, In j (keys (without k c)) <-> In j (keys c) /\ j <> k.
Proof.
  intros j k c. unfold keys, without. rewrite !in_map_iff. split.
  - intros ((i & x) & <- & I). apply filter_In in I as [I Q]. cbn in *. split; [exists (i, x); auto|]. intros ->. rewrite Nat.eqb_refl in Q. discriminate.
  - intros (((i & x) & <- & I) & N). exists (i, x). split; [reflexivity|]. apply filter_In. split; [exact I|]. cbn in *. destruct (Nat.eqb_spec i k); [contradiction|reflexivity].
Qed.
Lemma nodup_without : forall k c, NoDup (keys c) -> NoDup (keys (without k c)).
Proof.
  intros k c N. induction c as [|[j x] c IH]; [constructor|]. cbn in N. inversion N as [|? ? N1 N2]; subst. cbn. destruct (Nat.eqb j k); cbn; [auto|].
  constructor; [|auto]. fold (without k c). fold (keys (without k c)). intro I. apply keys_without in I as [I _]. exact (N1 I).
Qed.
Lemma length_without : forall k c, (length (without k c) <= length c)%nat /\ (In k (keys c) -> (length (without k c) < length c)%nat).
Proof.
  intros k. induction c as [|[j x] c [IH1 IH2]]; cbn; [split; [lia|tauto]|]. fold (without k c). destruct (Nat.eqb_spec j k) as [->|N]; cbn.
  - split; intros; lia.
  - split; [lia|]. intros [E|I]; [congruence|]. apply IH2 in I. lia.
Qed.
Lemma firstn_in : forall (n : nat) (c : cache) k, In k (keys (firstn n c)) -> In k (keys c).
Proof. induction n as [|n IH]; intros [|e c] k I; cbn in *; try tauto. destruct I as [I|I]; [auto|right; apply IH; exact I]. Qed.
Lemma firstn_nodup : forall n c, NoDup (keys c) -> NoDup (keys (firstn n c)).
Proof.
  induction n as [|n IH]; intros [|e c] N; cbn; try constructor; cbn in N; inversion N as [|? ? N1 N2]; subst; [|apply IH; exact N2].
  intro I. apply N1. apply firstn_in in I. exact I.
Qed.
Lemma firstn_incl : forall (n : nat) (c : cache) e, In e (firstn n c) -> In e c.
Proof. induction n as [|n IH]; intros [|e c] x I; cbn in *; try tauto. destruct I as [I|I]; [auto|right; apply IH; exact I]. Qed.
Lemma without_incl : forall k c e, In e (without k c) -> In e c.
Proof. intros k c e I. apply filter_In in I. tauto. Qed.

(** ** Without assignments *)
Definition current (s : glasses) : Prop := forall k v, In (k, v) (gl_cache s) -> exists g, nth_error (gl_objs s) k = Some g /\ abbe_body g = Some v.
Lemma current_step : forall c s, assigns c = false -> current s ->
  match glass_step c s, plain_step c (gl_objs s) with
  | None, None => True
  | Some (s', v), Some (gs, v') => v = v' /\ gs = gl_objs s' /\ current s'
  | _, _ => False
  end.
Proof.
  intros [g|k f|k w|k] s A C; cbn [glass_step plain_step]; try discriminate.
  - repeat split; auto. intros k v I. destruct (C k v I) as (g' & G & E). exists g'. split; [|exact E]. cbn. rewrite nth_error_app1; [exact G|]. apply nth_error_Some. congruence.
  - destruct (nth_error (gl_objs s) k); auto.
  - destruct (nth_error (gl_objs s) k) as [g|] eqn:G; [|exact I]. unfold answer. destruct (cached k (gl_cache s)) as [v|] eqn:E.
    + apply cached_some in E. destruct (C k v E) as (g' & G' & Q). rewrite G in G'. injection G' as <-. rewrite Q. repeat split; auto.
      intros j x [J|J]; cbn [gl_objs gl_cache] in *; [injection J as <- <-; eauto|]. apply without_incl in J. exact (C j x J).
    + destruct (abbe_body g) as [v|] eqn:Q; [|auto]. repeat split; auto. intros j x J. cbn [gl_objs gl_cache] in *. apply firstn_incl in J as [J|J]; [injection J as <- <-; eauto|exact (C j x J)].
Qed.
Lemma current_run : forall cs s, forallb (fun c => negb (assigns c)) cs = true -> current s ->
  match glass_run cs s, plain_run cs (gl_objs s) with
  | None, None => True
  | Some (s', vs), Some (gs, vs') => vs = vs' /\ gs = gl_objs s'
  | _, _ => False
  end.
Proof.
  induction cs as [|c cs IH]; intros s A C; cbn [glass_run plain_run]; [auto|]. cbn [forallb] in A. apply andb_true_iff in A as [A1 A2]. apply negb_true_iff in A1.
  pose proof (current_step c s A1 C) as S. destruct (glass_step c s) as [[s' v]|], (plain_step c (gl_objs s)) as [[gs v']|]; try contradiction; [|exact I].
  destruct S as (-> & -> & C'). specialize (IH s' A2 C'). destruct (glass_run cs s') as [[s2 vs]|], (plain_run cs (gl_objs s')) as [[gs2 vs']|]; try contradiction; [|exact I].
  destruct IH as (-> & ->). auto.
Qed.

(** ** With assignments *)
Lemma objs_step : forall c s, match glass_step c s, plain_step c (gl_objs s) with
  | None, None => True
  | Some (s', v), Some (gs, v') => gs = gl_objs s' /\ ((forall k, c <> Abbe k) -> v = v')
  | _, _ => False
  end.
Proof.
  intros [g|k f|k w|k] s; cbn [glass_step plain_step]; auto; destruct (nth_error (gl_objs s) k) as [g|]; auto.
  destruct (cached k (gl_cache s)); [split; [reflexivity|]; intro N; destruct (N k eq_refl)|].
  destruct (abbe_body g); (split; [reflexivity|]; intro N; destruct (N k eq_refl)).
Qed.
Lemma objs_run : forall cs s, match glass_run cs s, plain_run cs (gl_objs s) with
  | None, None => True
  | Some (s', vs), Some (gs, vs') => gs = gl_objs s' /\ length vs = length cs /\ length vs' = length cs /\
      forall i, (forall k, nth_error cs i <> Some (Abbe k)) -> nth_error vs i = nth_error vs' i
  | _, _ => False
  end.
Proof.
  induction cs as [|c cs IH]; intros s; cbn [glass_run plain_run]; [auto|].
  pose proof (objs_step c s) as S. destruct (glass_step c s) as [[s' v]|], (plain_step c (gl_objs s)) as [[gs v']|]; try contradiction; [|exact I].
  destruct S as (-> & V). specialize (IH s'). destruct (glass_run cs s') as [[s2 vs]|], (plain_run cs (gl_objs s')) as [[gs2 vs']|]; try contradiction; [|exact I].
  destruct IH as (-> & L & L' & N). repeat split; cbn [length]; auto. intros [|i] K; cbn in *; [|auto]. f_equal. apply V. intros k E. apply (K k). congruence.
Qed.
(** Every cached value was right once.  [past] lists the states of the glasses so far. *)
Definition was_right (past : list (list glass_obj)) (s : glasses) : Prop :=
  In (gl_objs s) past /\ forall k v, In (k, v) (gl_cache s) -> exists gs g, In gs past /\ nth_error gs k = Some g /\ abbe_body g = Some v.
Lemma was_step : forall c s past s' v, was_right past s -> glass_step c s = Some (s', v) ->
  was_right (gl_objs s' :: past) s' /\ (forall k, c = Abbe k -> exists gs g, In gs past /\ nth_error gs k = Some g /\ v = answer g).
Proof.
  intros c s past s' v (P & W) E.
  assert (K : forall k v, In (k, v) (gl_cache s) -> exists gs g, In gs (gl_objs s' :: past) /\ nth_error gs k = Some g /\ abbe_body g = Some v).
  { intros k x I. destruct (W k x I) as (gs & g & G & Q). exists gs, g. split; [right; exact G|exact Q]. }
  destruct c as [g|k f|k w|k]; cbn [glass_step] in E.
  - injection E as <- <-. split; [|discriminate]. split; [left; reflexivity|exact K].
  - destruct (nth_error (gl_objs s) k); [|discriminate]. injection E as <- <-. split; [|discriminate]. split; [left; reflexivity|exact K].
  - destruct (nth_error (gl_objs s) k); [|discriminate]. injection E as <- <-. split; [|discriminate]. split; [left; reflexivity|exact K].
  - destruct (nth_error (gl_objs s) k) as [g|] eqn:G; [|discriminate]. destruct (cached k (gl_cache s)) as [x|] eqn:C.
    + injection E as <- <-. apply cached_some in C. split.
      * split; [left; reflexivity|]. intros j y [J|J]; cbn [gl_objs gl_cache] in *; [injection J as <- <-; apply K; exact C|]. apply without_incl in J. apply K. exact J.
      * intros j J. injection J as <-. destruct (W k x C) as (gs & g' & I & Q & R). exists gs, g'. split; [exact I|]. split; [exact Q|]. unfold answer. rewrite R. reflexivity.
    + destruct (abbe_body g) as [x|] eqn:R; injection E as <- <-.
      * split.
        -- split; [left; reflexivity|]. intros j y J. cbn [gl_objs gl_cache] in *. apply firstn_incl in J as [J|J]; [injection J as <- <-|apply K; exact J].
           exists (gl_objs s), g. split; [left; reflexivity|]. auto.
        -- intros j J. injection J as <-. exists (gl_objs s), g. split; [exact P|]. split; [exact G|]. unfold answer. rewrite R. reflexivity.
      * split; [split; [left; reflexivity|exact K]|]. intros j J. injection J as <-. exists (gl_objs s), g. split; [exact P|]. split; [exact G|]. unfold answer. rewrite R. reflexivity.
Qed.
Lemma plain_app : forall a b gs gs1 vs1, plain_run a gs = Some (gs1, vs1) -> plain_run (a ++ b) gs = match plain_run b gs1 with Some (g2, vs2) => Some (g2, vs1 ++ vs2) | None => None end.
Proof.
  induction a as [|c a IH]; intros b gs gs1 vs1 E; cbn [app plain_run] in *; [injection E as <- <-; destruct (plain_run b gs) as [[? ?]|]; reflexivity|].
  destruct (plain_step c gs) as [[g' v]|]; [|discriminate]. destruct (plain_run a g') as [[g2 vs2]|] eqn:R; [|discriminate]. injection E as <- <-.
  rewrite (IH b g' g2 vs2 R). destruct (plain_run b g2) as [[? ?]|]; reflexivity.
Qed.
Lemma was_run : forall cs pre s past s' vs, plain_run pre [] <> None -> was_right past s ->
  (exists vs0, plain_run pre [] = Some (gl_objs s, vs0)) ->
  (forall gs, In gs past -> exists j vs0, (j <= length pre)%nat /\ plain_run (firstn j pre) [] = Some (gs, vs0)) ->
  glass_run cs s = Some (s', vs) -> forall i k v, nth_error cs i = Some (Abbe k) -> nth_error vs i = Some v ->
  exists j gs vs0 g, (j <= length pre + i)%nat /\ plain_run (firstn j (pre ++ cs)) [] = Some (gs, vs0) /\ nth_error gs k = Some g /\ v = answer g.
Proof.
  induction cs as [|c cs IH]; intros pre s past s' vs NP W (vs0 & P) A E i k v I V; cbn [glass_run] in E; [destruct i; discriminate|].
  destruct (glass_step c s) as [[s1 v1]|] eqn:S1; [|discriminate]. destruct (glass_run cs s1) as [[s2 vs2]|] eqn:R; [|discriminate]. injection E as <- <-.
  destruct (was_step c s past s1 v1 W S1) as (W1 & F). destruct i as [|i]; cbn in I, V.
  - injection I as ->. injection V as <-. destruct (F k eq_refl) as (gs & g & J & G & Q). destruct (A gs J) as (j & vs1 & L & PR).
    exists j, gs, vs1, g. split; [lia|]. split; [|auto]. rewrite firstn_app. replace (j - length pre)%nat with 0%nat by lia. cbn [firstn]. rewrite app_nil_r. exact PR.
  - pose proof (objs_step c s) as O. rewrite S1 in O. destruct (plain_step c (gl_objs s)) as [[gs1 v1']|] eqn:PS; [|contradiction]. destruct O as (-> & _).
    assert (P1 : plain_run (pre ++ [c]) [] = Some (gl_objs s1, vs0 ++ [v1'])).
    { rewrite (plain_app _ _ _ _ _ P). cbn [plain_run]. rewrite PS. reflexivity. }
    destruct (IH (pre ++ [c]) s1 (gl_objs s1 :: past) s2 vs2 ltac:(rewrite P1; discriminate) W1 (ex_intro _ _ P1)) with (i := i) (k := k) (v := v) as (j & gs & vs3 & g & L & PR & Q); auto.
    + intros gs [<-|J].
      * exists (length (pre ++ [c])), (vs0 ++ [v1']). split; [lia|]. rewrite firstn_all. exact P1.
      * destruct (A gs J) as (j & vs3 & L & PR). exists j, vs3. rewrite app_length. split; [lia|]. rewrite firstn_app. replace (j - length pre)%nat with 0%nat by lia. cbn [firstn]. rewrite app_nil_r. exact PR.
    + exists j, gs, vs3, g. rewrite app_length in L. cbn [length] in L. rewrite <- app_assoc in PR. split; [lia|]. split; [exact PR|exact Q].
Qed.

(** ** When an entry is dropped *)
Record tidy (s : glasses) : Prop := Tidy { td_keys : NoDup (keys (gl_cache s)); td_size : (length (gl_cache s) <= cache_size)%nat }.
Lemma tidy_step : forall c s s' v, tidy s -> glass_step c s = Some (s', v) -> tidy s'.
Proof.
  intros c s s' v [N L] E. destruct c as [g|k f|k w|k]; cbn [glass_step] in E.
  - injection E as <- <-. constructor; auto.
  - destruct (nth_error (gl_objs s) k); [|discriminate]. injection E as <- <-. constructor; auto.
  - destruct (nth_error (gl_objs s) k); [|discriminate]. injection E as <- <-. constructor; auto.
  - destruct (nth_error (gl_objs s) k) as [g|]; [|discriminate]. destruct (cached k (gl_cache s)) as [x|] eqn:C.
    + injection E as <- <-. apply cached_some in C. assert (I : In k (keys (gl_cache s))) by (apply in_map_iff; exists (k, x); auto). constructor; cbn [gl_cache].
      * cbn. constructor; [|apply nodup_without; exact N]. fold (keys (without k (gl_cache s))). intro J. apply keys_without in J. tauto.
      * cbn [length]. pose proof (proj2 (length_without k (gl_cache s)) I). lia.
    + destruct (abbe_body g) as [x|]; injection E as <- <-; [|constructor; auto]. apply cached_none in C. constructor; cbn [gl_cache].
      * apply firstn_nodup. cbn. constructor; auto.
      * rewrite firstn_length. lia.
Qed.
Lemma tidy_run : forall cs s s' vs, tidy s -> glass_run cs s = Some (s', vs) -> tidy s'.
Proof.
  induction cs as [|c cs IH]; intros s s' vs T E; cbn [glass_run] in E; [injection E as <- <-; exact T|].
  destruct (glass_step c s) as [[s1 v]|] eqn:S1; [|discriminate]. destruct (glass_run cs s1) as [[s2 vs2]|] eqn:R; [|discriminate]. injection E as <- <-.
  eapply IH; [|exact R]. eapply tidy_step; eauto.
Qed.
Record kept (k : nat) (v : xr) (s : glasses) (D : list nat) : Prop := Kept {
  kp_tidy : tidy s; kp_nodup : NoDup D; kp_not : ~ In k D;
  kp_where : (exists A B, gl_cache s = A ++ (k, v) :: B /\ forall j, In j D <-> In j (keys A)) \/ (~ In k (keys (gl_cache s)) /\ (cache_size <= length D)%nat)
}.
Lemma same_length : forall l l' : list nat, NoDup l -> NoDup l' -> (forall j, In j l <-> In j l') -> length l = length l'.
Proof. intros l l' N N' E. apply Nat.le_antisymm; apply NoDup_incl_length; auto; intros j J; apply E; exact J. Qed.
Lemma nodup_front : forall (A B : cache) e, NoDup (keys (A ++ e :: B)) -> NoDup (keys A) /\ ~ In (fst e) (keys A) /\ ~ In (fst e) (keys B).
Proof.
  intros A B e N. unfold keys in N. rewrite map_app in N. cbn [map] in N. pose proof (NoDup_remove_2 _ _ _ N) as N2. apply NoDup_remove_1 in N. rewrite in_app_iff in N2.
  split; [|fold (keys A) in *; fold (keys B) in *; tauto]. fold (keys A) in *. fold (keys B) in N. clear -N. induction (keys A) as [|a l IH]; [constructor|]. cbn in N. inversion N as [|? ? N1 N2]; subst.
  constructor; [rewrite in_app_iff in N1; tauto|auto].
Qed.
Definition insert (j : nat) (D : list nat) : list nat := if in_dec Nat.eq_dec j D then D else j :: D.
Lemma insert_in : forall i j D, In i (insert j D) <-> i = j \/ In i D.
Proof. intros i j D. unfold insert. destruct (in_dec Nat.eq_dec j D) as [J|J]; cbn; split; intros; intuition (subst; auto). Qed.
Lemma insert_nodup : forall j D, NoDup D -> NoDup (insert j D).
Proof. intros j D N. unfold insert. destruct (in_dec Nat.eq_dec j D); [exact N|constructor; auto]. Qed.
Lemma insert_length : forall j D, (length D <= length (insert j D))%nat.
Proof. intros j D. unfold insert. destruct (in_dec Nat.eq_dec j D); cbn; lia. Qed.
Lemma kept_hit : forall k v s D j x g, kept k v s D -> j <> k -> nth_error (gl_objs s) j = Some g -> cached j (gl_cache s) = Some x ->
  kept k v (Glasses (gl_objs s) ((j, x) :: without j (gl_cache s))) (insert j D).
Proof.
  intros k v s D j x g [T N NK W] J G C. assert (T' : tidy (Glasses (gl_objs s) ((j, x) :: without j (gl_cache s)))).
  { apply (tidy_step (Abbe j) s _ (Number x) T). cbn [glass_step]. rewrite G, C. reflexivity. }
  constructor; [exact T'|apply insert_nodup; exact N|rewrite insert_in; intros [E|E]; [congruence|contradiction]|]. cbn [gl_cache].
  destruct W as [(A & B & E & K)|(O & L)].
  - left. exists ((j, x) :: without j A), (without j B). split.
    + rewrite E. unfold without. rewrite filter_app. cbn [filter fst]. destruct (Nat.eqb_spec k j); [congruence|]. reflexivity.
    + intro i. rewrite insert_in. cbn. fold (keys (without j A)). rewrite keys_without, K. destruct (Nat.eq_dec i j); intuition (subst; auto).
  - right. split; [cbn; fold (keys (without j (gl_cache s))); rewrite keys_without; intros [E|[E _]]; [congruence|contradiction]|]. pose proof (insert_length j D). lia.
Qed.
Lemma kept_miss : forall k v s D j x g, kept k v s D -> j <> k -> nth_error (gl_objs s) j = Some g -> cached j (gl_cache s) = None -> abbe_body g = Some x ->
  kept k v (Glasses (gl_objs s) (firstn cache_size ((j, x) :: gl_cache s))) (insert j D).
Proof.
  intros k v s D j x g [T N NK W] J G C Q. assert (T' : tidy (Glasses (gl_objs s) (firstn cache_size ((j, x) :: gl_cache s)))).
  { apply (tidy_step (Abbe j) s _ (Number x) T). cbn [glass_step]. rewrite G, C, Q. reflexivity. }
  constructor; [exact T'|apply insert_nodup; exact N|rewrite insert_in; intros [E|E]; [congruence|contradiction]|]. cbn [gl_cache]. clear T'.
  apply cached_none in C. destruct W as [(A & B & E & K)|(O & L)].
  - rewrite E in *. destruct T as [TN TL]. rewrite E in TN. destruct (nodup_front _ _ _ TN) as (NA & OA & _). cbn [fst] in OA.
    assert (JA : ~ In j (keys A)) by (intro I; apply C; unfold keys; rewrite map_app; apply in_or_app; left; exact I).
    set (A' := (j, x) :: A) in *. change ((j, x) :: A ++ (k, v) :: B) with (A' ++ (k, v) :: B). rewrite firstn_app.
    assert (KA : forall i, In i (insert j D) <-> In i (keys A')) by (intro i; rewrite insert_in; cbn; fold (keys A); rewrite K; intuition (subst; auto)).
    destruct (Nat.lt_ge_cases (length A') cache_size) as [Q'|Q'].
    + left. exists A', (firstn (cache_size - length A' - 1) B). split; [|exact KA]. rewrite firstn_all2 by lia.
      destruct (cache_size - length A')%nat as [|q] eqn:Z; [lia|]. cbn [firstn]. replace (S q - 1)%nat with q by lia. reflexivity.
    + right. split.
      * replace (cache_size - length A')%nat with 0%nat by lia. cbn [firstn]. rewrite app_nil_r. intro I. apply firstn_in in I. destruct I as [I|I]; [cbn in I; congruence|contradiction].
      * rewrite (same_length (insert j D) (keys A')); [unfold keys; rewrite map_length; exact Q'|apply insert_nodup; exact N| |exact KA]. constructor; auto.
  - right. split; [intro I; apply firstn_in in I; destruct I as [I|I]; [cbn in I; congruence|contradiction]|]. pose proof (insert_length j D). lia.
Qed.
Lemma kept_step : forall k v c s D s' w, kept k v s D -> asks_abbe k c = false -> glass_step c s = Some (s', w) ->
  exists D', kept k v s' D' /\ forall j, In j D' <-> In j D \/ (c = Abbe j /\ exists x, w = Number x).
Proof.
  intros k v c s D s' w H A E. destruct c as [g|i f|i y|i]; cbn [glass_step] in E.
  - injection E as <- <-. exists D. split; [destruct H as [[T1 T2] N NK W]; constructor; auto; constructor; auto|]. intro j. split; [auto|intros [J|[J _]]; [auto|discriminate]].
  - destruct (nth_error (gl_objs s) i); [|discriminate]. injection E as <- <-. exists D. split; [destruct H as [[T1 T2] N NK W]; constructor; auto; constructor; auto|].
    intro j. split; [auto|intros [J|[J _]]; [auto|discriminate]].
  - destruct (nth_error (gl_objs s) i); [|discriminate]. injection E as <- <-. exists D. split; [exact H|]. intro j. split; [auto|intros [J|[J _]]; [auto|discriminate]].
  - cbn in A. apply Nat.eqb_neq in A. destruct (nth_error (gl_objs s) i) as [g|] eqn:G; [|discriminate]. destruct (cached i (gl_cache s)) as [x|] eqn:C.
    + injection E as <- <-. exists (insert i D). split; [eapply kept_hit; eauto|]. intro j. rewrite insert_in. split.
      * intros [->|J]; [right; split; eauto|auto].
      * intros [J|[J _]]; [auto|injection J as ->; auto].
    + destruct (abbe_body g) as [x|] eqn:Q; injection E as <- <-.
      * exists (insert i D). split; [eapply kept_miss; eauto|]. intro j. rewrite insert_in. split.
        -- intros [->|J]; [right; split; eauto|auto].
        -- intros [J|[J _]]; [auto|injection J as ->; auto].
      * exists D. split; [exact H|]. intro j. split; [auto|intros [J|[_ (z & J)]]; [auto|discriminate]].
Qed.
Lemma returned_cons : forall j c cs v vs, abbe_returned j (c :: cs) (v :: vs) <-> (c = Abbe j /\ exists x, v = Number x) \/ abbe_returned j cs vs.
Proof.
  intros j c cs v vs. unfold abbe_returned. split.
  - intros ([|i] & x & A & B); cbn in *; [left; split; [congruence|exists x; congruence]|right; eauto].
  - intros [(-> & x & ->)|(i & x & A & B)]; [exists 0%nat, x; auto|exists (S i), x; auto].
Qed.
Lemma kept_run : forall k v cs s D s' vs, kept k v s D -> forallb (fun c => negb (asks_abbe k c)) cs = true -> glass_run cs s = Some (s', vs) ->
  exists D', kept k v s' D' /\ forall j, In j D' <-> In j D \/ abbe_returned j cs vs.
Proof.
  intros k v. induction cs as [|c cs IH]; intros s D s' vs H A E; cbn [glass_run] in E.
  - injection E as <- <-. exists D. split; [exact H|]. intro j. split; [auto|]. intros [J|([|i] & x & J & _)]; [auto|discriminate..].
  - cbn [forallb] in A. apply andb_true_iff in A as [A1 A2]. apply negb_true_iff in A1.
    destruct (glass_step c s) as [[s1 w]|] eqn:S1; [|discriminate]. destruct (glass_run cs s1) as [[s2 vs2]|] eqn:R; [|discriminate]. injection E as <- <-.
    destruct (kept_step k v c s D s1 w H A1 S1) as (D1 & H1 & K1). destruct (IH s1 D1 s2 vs2 H1 A2 R) as (D2 & H2 & K2). exists D2. split; [exact H2|].
    intro j. rewrite K2, K1, returned_cons. tauto.
Qed.
Lemma kept_start : forall k s s1 v, tidy s -> glass_step (Abbe k) s = Some (s1, Number v) -> kept k v s1 [].
Proof.
  intros k s s1 v T E. pose proof (tidy_step _ _ _ _ T E) as T1. cbn [glass_step] in E. constructor; [exact T1|constructor|intros []|]. left. exists [].
  destruct (nth_error (gl_objs s) k) as [g|]; [|discriminate]. destruct (cached k (gl_cache s)) as [x|].
  - injection E as <- <-. eexists. split; [reflexivity|]. intro j. split; intros [].
  - destruct (abbe_body g) as [x|]; [|discriminate]. injection E as <- <-. eexists. split; [reflexivity|]. intro j. split; intros [].
Qed.
Lemma kept_end : forall k v s D g s' w, kept k v s D -> nth_error (gl_objs s) k = Some g -> glass_step (Abbe k) s = Some (s', w) ->
  ((cache_size <= length D)%nat -> w = answer g) /\ ((length D < cache_size)%nat -> w = Number v).
Proof.
  intros k v s D g s' w [T N NK W] G E. cbn [glass_step] in E. rewrite G in E. destruct W as [(A & B & C & K)|(O & L)].
  - rewrite (cached_in k (gl_cache s) v) in E; [|exact (td_keys _ T)|rewrite C; apply in_or_app; right; left; reflexivity]. injection E as _ <-. split; [|reflexivity]. intro L.
    destruct T as [TN TL]. rewrite C in TN, TL. destruct (nodup_front _ _ _ TN) as (NA & _). rewrite app_length in TL. cbn in TL.
    rewrite (same_length D (keys A) N NA K) in L. unfold keys in L. rewrite map_length in L. lia.
  - apply cached_none in O. rewrite O in E. split; [|lia]. intros _. unfold answer. destruct (abbe_body g); injection E as _ <-; reflexivity.
Qed.
Local Transparent cache_size.
Lemma dropped_exactly : forall cs s vs0 k s1 v p s2 vs g s3 w,
  glass_run cs no_glasses = Some (s, vs0) -> glass_step (Abbe k) s = Some (s1, Number v) ->
  glass_run p s1 = Some (s2, vs) -> forallb (fun c => negb (asks_abbe k c)) p = true ->
  nth_error (gl_objs s2) k = Some g -> glass_step (Abbe k) s2 = Some (s3, w) ->
  (others_returned 100%nat k p vs -> w = answer g) /\ (~ others_returned 100%nat k p vs -> w = Number v).
Proof.
  intros cs s vs0 k s1 v p s2 vs g s3 w R0 A1 R1 F G A2.
  assert (T : tidy s) by (eapply tidy_run; [|exact R0]; constructor; [constructor|cbn; lia]).
  destruct (kept_run k v p s1 [] s2 vs (kept_start k s s1 v T A1) F R1) as (D & H & K). destruct (kept_end k v s2 D g s3 w H G A2) as (E1 & E2). unfold cache_size in *. split.
  - intros (ks & N & L & O). apply E1. rewrite <- L. apply NoDup_incl_length; [exact N|]. intros j J. apply K. right. apply O. exact J.
  - intro O. apply E2. destruct (Nat.lt_ge_cases (length D) 100) as [L|L]; [exact L|]. destruct O.
    exists (firstn 100 D). split; [|split].
    + pose proof (kp_nodup _ _ _ _ H) as N. rewrite <- (firstn_skipn 100 D) in N. clear -N. induction (firstn 100 D) as [|a l IH]; [constructor|]. cbn in N. inversion N as [|? ? N1 N2]; subst.
      constructor; [rewrite in_app_iff in N1; tauto|auto].
    + rewrite firstn_length. lia.
    + intros j J. assert (I : In j D) by (rewrite <- (firstn_skipn 100 D); apply in_or_app; auto). split.
      * intros ->. exact (kp_not _ _ _ _ H I).
      * apply K in I as [[]|I]. exact I.
Qed.

(** ** A glass of one index has no Abbe number *)
Definition sellmeiers (s : glasses) : Prop := forall k v, In (k, v) (gl_cache s) -> exists c, nth_error (gl_objs s) k = Some (SellmeierGlass c).
Lemma sellmeiers_step : forall c s s' v, sellmeiers s -> glass_step c s = Some (s', v) -> sellmeiers s'.
Proof.
  intros [g|k f|k w|k] s s' v I H; cbn [glass_step] in H.
  - injection H as <- <-. intros j x J. cbn [gl_cache gl_objs] in *. destruct (I j x J) as (c & N). exists c. rewrite nth_error_app1; auto. apply nth_error_Some. rewrite N. discriminate.
  - destruct (nth_error (gl_objs s) k) as [g|] eqn:G; [|discriminate]. injection H as <- <-. intros j x J. cbn [gl_cache gl_objs] in *. destruct (I j x J) as (c & N).
    rewrite nth_list_upd. destruct (Nat.eqb j k) eqn:E; [rewrite N; cbn [option_map assign]|rewrite N]; eauto.
  - destruct (nth_error (gl_objs s) k) as [g|]; [|discriminate]. injection H as <- <-. exact I.
  - destruct (nth_error (gl_objs s) k) as [g|] eqn:G; [|discriminate]. destruct (cached k (gl_cache s)) as [x|] eqn:C.
    + injection H as <- <-. intros j y [E|J]; cbn [gl_objs].
      * injection E as <- <-. apply (I k x). apply cached_some. exact C.
      * apply (I j y). eapply without_incl. exact J.
    + destruct (abbe_body g) as [x|] eqn:B; [|injection H as <- <-; exact I].
      assert (K : gl_objs s' = gl_objs s /\ gl_cache s' = firstn cache_size ((k, x) :: gl_cache s)) by (injection H as <- <-; split; reflexivity).
      destruct K as (K1 & K2). intros j y J. rewrite K2 in J. rewrite K1. apply firstn_incl in J. destruct J as [E|J]; [|exact (I j y J)].
      injection E as <- <-. rewrite G. destruct g as [n|c]; [discriminate|]. eauto.
Qed.
Lemma sellmeiers_run : forall cs s s' vs, sellmeiers s -> glass_run cs s = Some (s', vs) -> sellmeiers s'.
Proof.
  induction cs as [|c cs IH]; intros s s' vs I H; cbn [glass_run] in H; [injection H as <- <-; exact I|].
  destruct (glass_step c s) as [[s1 v]|] eqn:E; [|discriminate]. destruct (glass_run cs s1) as [[s2 vs2]|] eqn:R; [|discriminate]. injection H as <- <-.
  eapply IH; [|exact R]. eapply sellmeiers_step; eauto.
Qed.
Theorem basic_never : forall cs s vs k n, glass_run cs no_glasses = Some (s, vs) -> nth_error (gl_objs s) k = Some (BasicGlass n) ->
  glass_step (Abbe k) s = Some (s, DivisionByZero).
Proof.
  intros cs s vs k n R N. assert (I : sellmeiers s) by (eapply sellmeiers_run; [|exact R]; intros ? ? []).
  cbn [glass_step]. rewrite N. destruct (cached k (gl_cache s)) as [x|] eqn:C; [|reflexivity].
  apply cached_some in C. destruct (I k x C) as (c & E). congruence.
Qed.

(** ** A glass that was not asked before is not in the cache *)
Lemma unasked_step : forall k c s s' v, c <> Abbe k -> ~ In k (keys (gl_cache s)) -> glass_step c s = Some (s', v) -> ~ In k (keys (gl_cache s')).
Proof.
  intros k [g|j f|j w|j] s s' v NE I H; cbn [glass_step] in H.
  - injection H as <- <-. exact I.
  - destruct (nth_error (gl_objs s) j); [|discriminate]. injection H as <- <-. exact I.
  - destruct (nth_error (gl_objs s) j); [|discriminate]. injection H as <- <-. exact I.
  - destruct (nth_error (gl_objs s) j) as [g|]; [|discriminate]. assert (JK : j <> k) by congruence. destruct (cached j (gl_cache s)) as [x|].
    + injection H as <- <-. cbn [gl_cache keys map fst]. intros [E|J]; [congruence|]. apply I. eapply keys_without. exact J.
    + destruct (abbe_body g) as [x|]; [|injection H as <- <-; auto].
      assert (K : gl_cache s' = firstn cache_size ((j, x) :: gl_cache s)) by (injection H as <- <-; reflexivity).
      intro J. rewrite K in J. apply firstn_in in J. destruct J as [E|J]; auto.
Qed.
Lemma unasked_run : forall k cs s s' vs, ~ In (Abbe k) cs -> ~ In k (keys (gl_cache s)) -> glass_run cs s = Some (s', vs) -> ~ In k (keys (gl_cache s')).
Proof.
  induction cs as [|c cs IH]; intros s s' vs NI I H; cbn [glass_run] in H; [injection H as <- <-; exact I|].
  destruct (glass_step c s) as [[s1 v]|] eqn:E; [|discriminate]. destruct (glass_run cs s1) as [[s2 vs2]|] eqn:R; [|discriminate]. injection H as <- <-.
  eapply IH; [|eapply unasked_step; [|exact I|exact E]|exact R]; [intro J; apply NI; right; auto|intro J; apply NI; left; auto].
Qed.
Theorem abbe_first : forall cs s vs k c nd nf nc, glass_run cs no_glasses = Some (s, vs) -> ~ In (Abbe k) cs ->
  nth_error (gl_objs s) k = Some (SellmeierGlass c) ->
  (forall w, w = 4861/10000 \/ w = 5893/10000 \/ w = 6563/10000 -> w * w <> c1 c /\ w * w <> c2 c /\ w * w <> c3 c) ->
  sellmeier_index c (5893/10000) = Fin nd -> sellmeier_index c (4861/10000) = Fin nf -> sellmeier_index c (6563/10000) = Fin nc -> nf <> nc ->
  exists s', glass_step (Abbe k) s = Some (s', Number (Fin ((nd - 1) / (nf - nc)))).
Proof.
  intros cs s vs k c nd nf nc R NI N NR A B D NE. pose proof (unasked_run k cs _ _ _ NI (fun H : In k (keys (gl_cache no_glasses)) => H) R) as U.
  cbn [glass_step]. rewrite N. apply cached_none in U. rewrite U.
  assert (F : forall a b, a <> b -> reqb a b = false) by (intros a b H; unfold reqb; destruct (Req_EM_T a b); [contradiction|reflexivity]).
  assert (Q : forall w, w = 4861/10000 \/ w = 5893/10000 \/ w = 6563/10000 -> resonant c w = false).
  { intros w W. destruct (NR w W) as (X & Y & Z). unfold resonant. rewrite !F by auto. reflexivity. }
  cbn [abbe_body]. rewrite !Q by auto. cbn [orb]. unfold abbe. rewrite A, B, D. cbn.
  destruct (Req_EM_T (nf + - nc) 0) as [E|_]; [exfalso; lra|]. eexists. reflexivity.
Qed.
