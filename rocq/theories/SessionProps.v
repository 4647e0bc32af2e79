(** * SessionProps: histories of sessions *)
From Coq Require Import Reals List Bool ZArith Lia.
Import ListNotations.
From Verif Require Import XR Arr Lin Ops Prim Csg Surf World Tracer Session SpecSession SessionFacts.
Open Scope R_scope.

Definition sess_ok (s : session) : Prop := forall k p, nth_error (s_tracers s) k = Some p -> framed p (s_store s).
Definition final (r : sres) : option session := match r with SOk s | SRaise _ s => Some s | SEndless => None end.

(** what one statement does to everything in the session *)
Record effect (c : stmt) (s s' : session) : Prop := Effect {
  e_ok : sess_ok s';
  e_frames : forall f fr, frame_holds s f = Some fr -> exists fr', frame_holds s' f = Some fr' /\ f_rows fr' = f_rows fr /\
    (fr' = fr \/ (adds_ids c /\ exists k, results_object s k = Some f));
  e_tracers : forall k p, nth_error (s_tracers s) k = Some p -> exists p', nth_error (s_tracers s') k = Some p' /\
    p_sources p' = p_sources p /\ (p_comps p' = p_comps p \/ loads k c) /\ (p_n p' = p_n p \/ sets_rays k c) /\
    (p_limit p' = p_limit p \/ sets_limit k c) /\ p_lut p' = p_lut p /\
    (p_frame p' = p_frame p \/ (renews_results k c /\ (length (st_frames (s_store s)) <= p_frame p')%nat));
  e_fresh : forall k p', nth_error (s_tracers s) k = None -> nth_error (s_tracers s') k = Some p' ->
    (length (st_frames (s_store s)) <= p_frame p')%nat;
  e_iters : forall i, nth_error (st_iters (s_store s)) i = Some (Iterator []) -> nth_error (st_iters (s_store s')) i = Some (Iterator [])
}.
Lemma effect_refl : forall c s, sess_ok s -> effect c s s.
Proof.
  intros c s O. split; auto.
  - intros f fr H. eauto.
  - intros k p H. exists p. auto 10.
  - intros k p' N H. congruence.
Qed.
(** tracers untouched, the store grown *)
Lemma effect_store : forall c s h m n, sess_ok s -> (exists fs, st_frames m = st_frames (s_store s) ++ fs) ->
  (forall i, nth_error (st_iters (s_store s)) i = Some (Iterator []) -> nth_error (st_iters m) i = Some (Iterator [])) ->
  effect c s (Session h m (s_tracers s) n).
Proof.
  intros c s h m n O (fs & E) It. split; cbn [s_tracers s_store].
  - intros k p H. specialize (O k p H). unfold framed in *. cbn [s_store]. rewrite E, app_length. lia.
  - intros f fr H. exists fr. split; [|auto]. unfold frame_holds in *. cbn [s_store]. rewrite E. apply app_old; auto.
  - intros k p H. exists p. auto 10.
  - intros k p' N H. congruence.
  - auto.
Qed.
Lemma resolve_frames : forall a m i m', resolve a m = (i, m') -> st_frames m' = st_frames m /\
  (forall j x, nth_error (st_iters m) j = Some x -> nth_error (st_iters m') j = Some x).
Proof. intros [l|j] m i m' H; injection H as <- <-; cbn [st_frames st_iters]; split; auto. intros. apply app_old; auto. Qed.
(** tracer [k] replaced by one that stepped *)
Lemma effect_step : forall c s k p p' m n, sess_ok s -> nth_error (s_tracers s) k = Some p -> step_ok p (s_store s) p' m -> renews_results k c ->
  effect c s (with_tracer k (fun _ => p') (Session (s_heap s) m (s_tracers s) n)).
Proof.
  intros c s k p p' m n O Hk (((fs & E) & L & Pl & Pe) & (K1 & K2 & K3 & K4 & K5) & Fr & V) Rn.
  split; unfold with_tracer; cbn [s_tracers s_store s_heap s_clock].
  - intros j q H. destruct (Nat.eq_dec k j) as [->|Nq].
    + cbn [s_tracers] in H. rewrite (upd_same _ _ _ _ _ Hk) in H. injection H as <-. exact Fr.
    + cbn [s_tracers] in H. rewrite upd_other in H by auto. specialize (O j q H). unfold framed in *. cbn [s_store]. rewrite E, app_length. lia.
  - intros f fr H. exists fr. split; [|auto]. unfold frame_holds in *. cbn [s_store]. rewrite E. apply app_old; auto.
  - intros j q H. destruct (Nat.eq_dec k j) as [->|Nq].
    + rewrite Hk in H. injection H as <-. exists p'. split; [apply (upd_same _ _ _ _ _ Hk)|]. repeat split; auto.
      destruct V as [V|V]; [auto|right; auto].
    + exists q. split; [rewrite upd_other; auto|]. auto 10.
  - intros j q N H. destruct (Nat.eq_dec k j) as [->|Nq]; [congruence|]. rewrite upd_other in H by auto. congruence.
  - auto.
Qed.
Lemma effect_set : forall c s k f m, sess_ok s -> nth_error (s_tracers s) k <> None ->
  st_frames m = st_frames (s_store s) -> (forall j x, nth_error (st_iters (s_store s)) j = Some x -> nth_error (st_iters m) j = Some x) ->
  (forall p, p_frame (f p) = p_frame p /\ p_sources (f p) = p_sources p /\ p_lut (f p) = p_lut p /\ (p_comps (f p) = p_comps p \/ loads k c) /\
    (p_n (f p) = p_n p \/ sets_rays k c) /\ (p_limit (f p) = p_limit p \/ sets_limit k c)) ->
  effect c s (with_tracer k f (Session (s_heap s) m (s_tracers s) (s_clock s))).
Proof.
  intros c s k f m O Hk E It Hf. split; unfold with_tracer; cbn [s_tracers s_store s_heap s_clock].
  - intros j q H. cbn [s_tracers] in H. unfold framed; cbn [s_store]. rewrite E. destruct (Nat.eq_dec k j) as [->|Nq].
    + destruct (nth_error (s_tracers s) j) as [p|] eqn:P; [|congruence]. rewrite (upd_same _ _ _ _ _ P) in H. injection H as <-.
      destruct (Hf p) as (-> & _). apply (O j p P).
    + rewrite upd_other in H by auto. apply (O j q H).
  - intros g fr H. exists fr. split; [|auto]. unfold frame_holds in *. cbn [s_store]. rewrite E. auto.
  - intros j q H. destruct (Nat.eq_dec k j) as [->|Nq].
    + exists (f q). split; [apply upd_same; auto|]. destruct (Hf q) as (A1 & A2 & A3 & A4 & A5 & A6). auto 10.
    + exists q. split; [rewrite upd_other; auto|]. auto 10.
  - intros j q N H. destruct (Nat.eq_dec k j) as [->|Nq]; [congruence|]. rewrite upd_other in H by auto. congruence.
  - auto.
Qed.

Section History.
  Variable asort : list xr -> list nat.
  Variable gen : nat -> heap -> loc -> nat -> list col.
  Variable fuel : nat.

  Lemma stmt_effect : forall c s s', sess_ok s -> final (run_stmt asort gen fuel c s) = Some s' -> effect c s s'.
  Proof.
    intros c s s' O H. destruct c as [wc|xs|xs|i xs|src comps n limit|k n|k limit|k comps|k|k|k]; cbn [run_stmt] in H.
    - destruct (run_call asort wc (s_heap s)) as [h|e h|]; try discriminate; injection H as <-;
        (apply effect_store; auto; exists []; rewrite app_nil_r; auto).
    - injection H as <-. apply effect_store; auto; [exists []; rewrite app_nil_r; auto|]. intros j J. cbn [st_iters]. apply app_old; auto.
    - injection H as <-. apply effect_store; auto; [exists []; rewrite app_nil_r; auto|]. intros j J. cbn [st_iters]. apply app_old; auto.
    - destruct (nth_error (st_iters (s_store s)) i) as [[ys|ys]|] eqn:E; injection H as <-; try (apply effect_refl; auto).
      apply effect_store; auto; [exists []; rewrite app_nil_r; auto|]. intros j J. cbn [st_iters].
      rewrite upd_other; auto. intros ->. congruence.
    - unfold s_tracer in H. destruct (new_frame empty_frame (s_store s)) as [f m] eqn:E1. destruct (resolve src m) as [si m1] eqn:E2.
      destruct (resolve comps m1) as [ci m2] eqn:E3. destruct (iterate m2 ci) as [cs m3] eqn:E4.
      destruct (new_frame_grows _ _ _ _ E1) as (G1 & -> & Ef & Ei). destruct (resolve_frames _ _ _ _ E2) as (F2 & I2).
      destruct (resolve_frames _ _ _ _ E3) as (F3 & I3). destruct (iterate_grows _ _ _ _ E4) as ((_ & _ & _ & I4) & F4).
      assert (Fm : st_frames m3 = st_frames (s_store s) ++ [empty_frame]) by congruence.
      assert (Im : forall i, nth_error (st_iters (s_store s)) i = Some (Iterator []) -> nth_error (st_iters m3) i = Some (Iterator [])).
      { intros i J. apply I4, I3, I2. rewrite Ei. auto. }
      destruct (collect (map (lut_of (s_heap s)) cs)) as [luts|]; injection H as <-; [|apply effect_store; eauto].
      split; cbn [s_tracers s_store].
      + intros k p H. cbn [s_tracers] in H. unfold framed; cbn [s_store]. rewrite Fm, app_length. cbn [length].
        destruct (Nat.lt_ge_cases k (length (s_tracers s))) as [L|L].
        * rewrite nth_error_app1 in H by auto. specialize (O k p H). unfold framed in O. lia.
        * rewrite nth_error_app2 in H by auto. destruct (k - length (s_tracers s))%nat as [|[|q]]; cbn in H; try discriminate.
          injection H as <-. cbn [p_frame]. lia.
      + intros g fr H. exists fr. split; [|auto]. unfold frame_holds in *. cbn [s_store]. rewrite Fm. apply app_old; auto.
      + intros k p H. exists p. split; [apply app_old; auto|]. auto 10.
      + intros k p' N H. apply nth_error_None in N. rewrite nth_error_app2 in H by auto.
        destruct (k - length (s_tracers s))%nat as [|[|q]]; cbn in H; try discriminate. injection H as <-. cbn [p_frame]. lia.
      + auto.
    - destruct (nth_error (s_tracers s) k) as [p|] eqn:Hk; [|injection H as <-; apply effect_refl; auto]. injection H as <-.
      destruct s as [hh m tr cl]. apply (effect_set _ (Session hh m tr cl)); auto; cbn [s_tracers] in *; [congruence|].
      intros q. cbn. auto 10.
    - destruct (nth_error (s_tracers s) k) as [p|] eqn:Hk; [|injection H as <-; apply effect_refl; auto]. injection H as <-.
      destruct s as [hh m tr cl]. apply (effect_set _ (Session hh m tr cl)); auto; cbn [s_tracers] in *; [congruence|].
      intros q. cbn. auto 10.
    - destruct (nth_error (s_tracers s) k) as [p|] eqn:Hk; [|injection H as <-; apply effect_refl; auto].
      destruct (resolve comps (s_store s)) as [ci m] eqn:E. destruct (resolve_frames _ _ _ _ E) as (F & I). injection H as <-.
      apply effect_set; auto; [congruence|]. intros q. cbn. auto 10.
    - destruct (nth_error (s_tracers s) k) as [p|] eqn:Hk; [|injection H as <-; apply effect_refl; auto].
      destruct (p_reset p (s_store s)) as [p' m] eqn:E. destruct (reset_ok _ _ _ _ E) as (S & _). injection H as <-.
      apply (effect_step _ s k p p' m); auto. reflexivity.
    - destruct (nth_error (s_tracers s) k) as [p|] eqn:Hk; [|injection H as <-; apply effect_refl; auto].
      pose proof (trace_ok asort (s_heap s) (gen (s_clock s) (s_heap s)) fuel p (s_store s) (O k p Hk)) as T.
      destruct (p_trace asort (s_heap s) (gen (s_clock s) (s_heap s)) fuel p (s_store s)) as [p' m|e p' m| |]; cbn [final pres_ok] in *; try discriminate;
        injection H as <-; apply (effect_step _ s k p p' m); auto; reflexivity.
    - destruct (nth_error (s_tracers s) k) as [p|] eqn:Hk; [|injection H as <-; apply effect_refl; auto]. injection H as <-.
      split; cbn [s_tracers s_store].
      + intros j q H. specialize (O j q H). unfold framed in *. cbn [s_store st_frames]. rewrite upd_length. auto.
      + intros f fr H. unfold frame_holds in *. cbn [s_store st_frames]. destruct (Nat.eq_dec (p_frame p) f) as [<-|Nq].
        * eexists. split; [apply (upd_same _ _ _ _ _ H)|]. split; [reflexivity|]. right. split; [exact Logic.I|]. exists k. unfold results_object. rewrite Hk. auto.
        * exists fr. rewrite upd_other by auto. auto.
      + intros j q H. exists q. auto 10.
      + intros j q N H. congruence.
      + auto.
  Qed.
  Lemma run_cons : forall c r s s', run_stmts asort gen fuel (c :: r) s = Some s' ->
    exists s1, final (run_stmt asort gen fuel c s) = Some s1 /\ run_stmts asort gen fuel r s1 = Some s'.
  Proof. intros c r s s' H. cbn [run_stmts] in H. destruct (run_stmt asort gen fuel c s); try discriminate; cbn [final]; eauto. Qed.
  Lemma run_ok : forall cs s s', sess_ok s -> run_stmts asort gen fuel cs s = Some s' -> sess_ok s'.
  Proof.
    induction cs as [|c r IH]; intros s s' O H; [injection H as <-; auto|]. destruct (run_cons _ _ _ _ H) as (s1 & E & H1).
    apply (IH s1); auto. apply (e_ok _ _ _ (stmt_effect _ _ _ O E)).
  Qed.
  Lemma start_ok : sess_ok start. Proof. intros [|k] p H; discriminate. Qed.

  (** ** frames are snapshots *)
  Lemma frames_kept : forall pre cs s s' f fr, run_stmts asort gen fuel pre start = Some s -> run_stmts asort gen fuel cs s = Some s' ->
    frame_holds s f = Some fr -> exists fr', frame_holds s' f = Some fr' /\ f_rows fr' = f_rows fr /\
      (Forall (fun c => ~ adds_ids c) cs \/ (forall k, results_object s k <> Some f) -> fr' = fr).
  Proof.
    intros pre cs s s' f fr Hp. pose proof (run_ok _ _ _ start_ok Hp) as O. clear Hp. revert s s' fr O.
    induction cs as [|c r IH]; intros s s' fr O H Hf.
    - injection H as <-. eauto.
    - destruct (run_cons _ _ _ _ H) as (s1 & E & H1). pose proof (stmt_effect _ _ _ O E) as Ef.
      destruct (e_frames _ _ _ Ef f fr Hf) as (fr1 & Hf1 & R1 & C1).
      destruct (IH s1 s' fr1 (e_ok _ _ _ Ef) H1 Hf1) as (fr' & Hf' & R' & C'). exists fr'. split; [auto|]. split; [congruence|].
      intros [Q|Q].
      + inversion Q as [|? ? Nc Qr]; subst. rewrite C' by auto. destruct C1 as [C1|(A & _)]; [auto|contradiction].
      + assert (F1 : fr1 = fr) by (destruct C1 as [C1|(_ & k & X)]; [auto|exfalso; apply (Q k X)]).
        rewrite C'; [exact F1|]. right. intros k Hk. unfold results_object in Hk.
        destruct (nth_error (s_tracers s1) k) as [p1|] eqn:P1; [|discriminate]. cbn in Hk. injection Hk as Hk.
        assert (Lf : (f < length (st_frames (s_store s)))%nat) by (apply nth_error_Some; unfold frame_holds in Hf; congruence).
        destruct (nth_error (s_tracers s) k) as [p|] eqn:P.
        * destruct (e_tracers _ _ _ Ef k p P) as (p' & P' & _ & _ & _ & _ & _ & [X|(_ & X)]); rewrite P1 in P'; injection P' as <-.
          -- apply (Q k). unfold results_object. rewrite P. cbn. congruence.
          -- lia.
        * pose proof (e_fresh _ _ _ Ef k p1 P P1). lia.
  Qed.

  (** ** settings and results last *)
  Lemma lasting : forall cs s s' k p, sess_ok s -> run_stmts asort gen fuel cs s = Some s' -> nth_error (s_tracers s) k = Some p ->
    exists p', nth_error (s_tracers s') k = Some p' /\ p_sources p' = p_sources p /\ p_lut p' = p_lut p /\
      (Forall (fun c => ~ loads k c) cs -> p_comps p' = p_comps p) /\
      (Forall (fun c => ~ sets_rays k c) cs -> p_n p' = p_n p) /\
      (Forall (fun c => ~ sets_limit k c) cs -> p_limit p' = p_limit p) /\
      (Forall (fun c => ~ renews_results k c) cs -> p_frame p' = p_frame p).
  Proof.
    induction cs as [|c r IH]; intros s s' k p O H P.
    - injection H as <-. exists p. auto 10.
    - destruct (run_cons _ _ _ _ H) as (s1 & E & H1). pose proof (stmt_effect _ _ _ O E) as Ef.
      destruct (e_tracers _ _ _ Ef k p P) as (p1 & P1 & S1 & C1 & N1 & L1 & T1 & F1).
      destruct (IH s1 s' k p1 (e_ok _ _ _ Ef) H1 P1) as (p' & P' & S' & T' & C' & N' & L' & F').
      exists p'. split; [auto|]. split; [congruence|]. split; [congruence|].
      repeat split; intro Q; inversion Q as [|? ? Nc Qr]; subst.
      + rewrite C' by auto. destruct C1; [auto|contradiction].
      + rewrite N' by auto. destruct N1; [auto|contradiction].
      + rewrite L' by auto. destruct L1; [auto|contradiction].
      + rewrite F' by auto. destruct F1 as [F1|(X & _)]; [auto|contradiction].
  Qed.
  Lemma settings_last : forall pre cs s s' k, run_stmts asort gen fuel pre start = Some s -> run_stmts asort gen fuel cs s = Some s' ->
    nth_error (s_tracers s) k <> None ->
    (Forall (fun c => ~ sets_rays k c) cs -> rays_per_source s' k = rays_per_source s k) /\
    (Forall (fun c => ~ sets_limit k c) cs -> generation_limit s' k = generation_limit s k) /\
    (Forall (fun c => ~ renews_results k c) cs -> results_object s' k = results_object s k).
  Proof.
    intros pre cs s s' k Hp H N. destruct (nth_error (s_tracers s) k) as [p|] eqn:P; [|congruence].
    destruct (lasting cs s s' k p (run_ok _ _ _ start_ok Hp) H P) as (p' & P' & _ & _ & _ & A & B & C).
    unfold rays_per_source, generation_limit, results_object. rewrite P, P'. cbn. repeat split; intro Q; f_equal; auto.
  Qed.
  Lemma set_rays_reads : forall s k n s', run_stmt asort gen fuel (SRaysPerSource k n) s = SOk s' -> rays_per_source s' k = Some n.
  Proof.
    intros s k n s' H. cbn [run_stmt] in H. destruct (nth_error (s_tracers s) k) as [p|] eqn:P; [|discriminate]. injection H as <-.
    unfold rays_per_source, with_tracer; cbn [s_tracers]. rewrite (upd_same _ _ _ _ _ P). reflexivity.
  Qed.
  Lemma set_limit_reads : forall s k n s', run_stmt asort gen fuel (SLimit k n) s = SOk s' -> generation_limit s' k = Some n.
  Proof.
    intros s k n s' H. cbn [run_stmt] in H. destruct (nth_error (s_tracers s) k) as [p|] eqn:P; [|discriminate]. injection H as <-.
    unfold generation_limit, with_tracer; cbn [s_tracers]. rewrite (upd_same _ _ _ _ _ P). reflexivity.
  Qed.
  Lemma made_with : forall s a b n l s', run_stmt asort gen fuel (STracer a b n l) s = SOk s' ->
    rays_per_source s' (length (s_tracers s)) = Some n /\ generation_limit s' (length (s_tracers s)) = Some l /\ shows s' (length (s_tracers s)) empty_frame.
  Proof.
    intros s a b n l s' H. cbn [run_stmt] in H. unfold s_tracer in H. destruct (new_frame empty_frame (s_store s)) as [f m] eqn:E1.
    destruct (resolve a m) as [si m1] eqn:E2. destruct (resolve b m1) as [ci m2] eqn:E3. destruct (iterate m2 ci) as [cs m3] eqn:E4.
    destruct (collect (map (lut_of (s_heap s)) cs)) as [luts|]; [|discriminate]. injection H as <-.
    destruct (new_frame_grows _ _ _ _ E1) as (G1 & -> & Ef & Ei). destruct (resolve_frames _ _ _ _ E2) as (F2 & I2).
    destruct (resolve_frames _ _ _ _ E3) as (F3 & I3). destruct (iterate_grows _ _ _ _ E4) as (_ & F4).
    unfold rays_per_source, generation_limit, shows, results_object, frame_holds; cbn [s_tracers s_store]. rewrite app_new. cbn.
    split; [auto|]. split; [auto|]. eexists. split; [reflexivity|]. rewrite F4, F3, F2, Ef. apply app_new.
  Qed.

  (** ** tracing lists *)
  Lemma trace_lists : forall pre s k xs ys t, run_stmts asort gen fuel pre start = Some s -> tracer_is s k xs ys t ->
    match trace asort (s_heap s) (gen (s_clock s) (s_heap s)) fuel t with
    | TOk t' => exists s', run_stmt asort gen fuel (STrace k) s = SOk s' /\ tracer_is s' k xs ys t' /\ shows s' k (get_results t') /\
        s_heap s' = s_heap s /\ st_iters (s_store s') = st_iters (s_store s)
    | TRaise e t' => exists s', run_stmt asort gen fuel (STrace k) s = SRaise e s' /\ tracer_is s' k xs ys t' /\ shows s' k (get_results t') /\
        s_heap s' = s_heap s /\ st_iters (s_store s') = st_iters (s_store s)
    | _ => run_stmt asort gen fuel (STrace k) s = SEndless
    end.
  Proof.
    intros pre s k xs ys t _ (p & f & P & Hs & Hc & Hf & ->).
    assert (Fa : frame_at (s_store s) (p_frame p) = f) by (unfold frame_at; unfold frame_holds in Hf; apply nth_error_nth; auto).
    set (t0 := Tracer f (p_state p) (p_gen p) (p_complete p) xs ys (p_n p) (p_limit p) (p_rays p) (p_hits p) (p_lut p)).
    assert (L : like (s_store s) p xs ys t0).
    { split; [exact Hs|]. split; [exact Hc|]. split; [apply nth_error_Some; unfold frame_holds in Hf; congruence|]. rewrite Fa. reflexivity. }
    pose proof (trace_like asort (s_heap s) (gen (s_clock s) (s_heap s)) fuel _ _ _ _ _ L) as A. cbn [run_stmt]. rewrite P.
    assert (X : forall p' m' t' n, like m' p' xs ys t' -> let s' := with_tracer k (fun _ => p') (Session (s_heap s) m' (s_tracers s) n) in
      tracer_is s' k xs ys t' /\ shows s' k (get_results t')).
    { intros p' m' t' n (Hs' & Hc' & Fr' & ->). cbn zeta.
      assert (Hk : nth_error (list_upd (s_tracers s) k (fun _ => p')) k = Some p') by (apply (upd_same _ _ _ (fun _ => p') _ P)).
      assert (Hh : nth_error (st_frames m') (p_frame p') = Some (frame_at m' (p_frame p'))) by (unfold frame_at; apply nth_error_nth'; exact Fr').
      split.
      - exists p', (frame_at m' (p_frame p')). unfold with_tracer, holds_list, frame_holds; cbn [s_tracers s_store]. auto 10.
      - exists (p_frame p'). unfold with_tracer, results_object, frame_holds; cbn [s_tracers s_store]. rewrite Hk. cbn. auto. }
    destruct (trace asort (s_heap s) (gen (s_clock s) (s_heap s)) fuel t0) as [t'|e t'| |];
      destruct (p_trace asort (s_heap s) (gen (s_clock s) (s_heap s)) fuel p (s_store s)) as [p' m'|e' p' m'| |]; cbn [alike] in A; try contradiction; auto.
    - destruct A as (Lk & Ei). destruct (X p' m' t' (S (s_clock s)) Lk) as (T & Sh). eexists. split; [reflexivity|]. split; [exact T|]. split; [exact Sh|].
      split; [reflexivity|exact Ei].
    - destruct A as (-> & Lk & Ei). destruct (X p' m' t' (S (s_clock s)) Lk) as (T & Sh). eexists. split; [reflexivity|]. split; [exact T|]. split; [exact Sh|].
      split; [reflexivity|exact Ei].
  Qed.

  (** ** iterators *)
  Lemma lut_pass_hits : forall lut cells cells', lut_pass lut cells = Some cells' -> map hit_of cells' = map hit_of cells.
  Proof.
    induction lut as [|[id s] lut IH]; intros cells cells' H; [injection H as <-; auto|]. cbn [lut_pass] in H.
    destruct (lut_entry (id, s) cells) as [c1|] eqn:E; [|discriminate]. rewrite (IH _ _ H). clear H IH. unfold lut_entry in E.
    destruct (existsb _ cells); [|injection E as <-; auto].
    assert (X : c1 = map (fun x => if Z.eqb (snd (hit_of x)) id then apply_surface s x else x) cells) by (destruct (s_mat s); congruence).
    rewrite X, map_map. apply map_ext. intros [h0 oc]. destruct (Z.eqb _ _); reflexivity.
  Qed.
  Lemma no_hits_dead : forall lut limit g rays, interact lut limit g rays (map (propagate asort []) rays) = IAllDead \/
    interact lut limit g rays (map (propagate asort []) rays) = IRaise.
  Proof.
    intros lut limit g rays. unfold interact. set (cells0 := map (fun q : (xr * Z) * col => start_cell (fst q) (snd q)) _).
    destruct (lut_pass lut cells0) as [cells|] eqn:E; [|auto]. left. apply lut_pass_hits in E.
    assert (M : forall x, In x (map hit_of cells) -> x = (PInf, (-1)%Z)).
    { intros x. rewrite E. unfold cells0. rewrite map_map. intro I. apply in_map_iff in I. destruct I as ([h0 c] & <- & I).
      apply in_combine_l in I. apply in_map_iff in I. destruct I as (c0 & <- & _). reflexivity. }
    assert (F : filter (fun q : col * cell => negb (dead (fst q) (hit_of (snd q)))) (combine rays cells) = []).
    { assert (A : forall q, In q (combine rays cells) -> negb (dead (fst q) (hit_of (snd q))) = false).
      { intros [c x] I. apply in_combine_r in I. cbn [fst snd]. rewrite (M (hit_of x)) by (apply in_map; auto). unfold dead, logical_or_out. cbn [snd].
        rewrite Z.eqb_refl, orb_true_r. reflexivity. }
      revert A. generalize (combine rays cells). intros l A. induction l as [|q l IH]; [auto|]. cbn [filter]. rewrite (A q) by (left; auto). apply IH. intros; apply A; right; auto. }
    rewrite F. reflexivity.
  Qed.
  Lemma iterate_empty : forall m i, nth_error (st_iters m) i = Some (Iterator []) -> exists m', iterate m i = ([], m') /\ st_frames m' = st_frames m.
  Proof. intros m i H. unfold iterate. rewrite H. eauto. Qed.
  Lemma trace_exhausted : forall h g p m p' m', framed p m -> nth_error (st_iters m) (p_comps p) = Some (Iterator []) ->
    p_trace asort h g fuel p m = POk p' m' -> nth_error (st_frames m') (p_frame p') = Some empty_frame.
  Proof.
    intros h g p m p' m' Fr Ci H. unfold p_trace in H. destruct fuel as [|n1]; [discriminate|]. cbn [p_states p_state] in H.
    unfold p_initialize in H at 1.
    match type of H with context [p_reset ?q m] => destruct (p_reset q m) as [p1 m1] eqn:E; destruct (reset_ok _ _ _ _ E) as ((G1 & K1 & Fr1 & _) & F1 & _ & I1 & Ef1) end.
    destruct (iterate m1 (p_sources p1)) as [ss m2] eqn:It. destruct (iterate_grows _ _ _ _ It) as ((_ & _ & _ & It2) & E2).
    destruct ss as [|x ss]; [discriminate|]. cbn [pbind] in H.
    destruct n1 as [|n2]; [discriminate|]. cbn [p_states p_state] in H. unfold p_propagate in H at 1. cbn [p_comps] in H.
    assert (C1 : p_comps p1 = p_comps p) by apply K1.
    assert (Ci2 : nth_error (st_iters m2) (p_comps p1) = Some (Iterator [])) by (apply It2; rewrite I1, C1; exact Ci).
    destruct (iterate_empty _ _ Ci2) as (m3 & E3 & F3). rewrite E3 in H. cbn [map collect pbind] in H.
    destruct n2 as [|n3]; [discriminate|]. cbn [p_states p_state] in H. unfold p_interact in H at 1. cbn [p_lut p_limit p_gen p_rays p_hits] in H.
    destruct (collect (map (entry_of h) (p_lut p1))) as [lut|]; [|discriminate].
    match type of H with context [interact ?a ?b ?c ?d (map (propagate asort []) ?d)] => destruct (no_hits_dead a b c d) as [X|X]; rewrite X in H; clear X end; [|discriminate].
    cbn [pbind] in H. destruct n3 as [|n4]; [discriminate|]. cbn [p_states p_state p_finish pbind] in H.
    assert (Y : forall q mm, p_state q = IDLE -> p_states asort h g n4 q mm = POk q mm) by (intros q mm Q; destruct n4; cbn [p_states]; rewrite Q; reflexivity).
    rewrite Y in H by reflexivity. injection H as <- <-. cbn [p_frame]. rewrite F3, E2, Ef1, F1. apply app_new.
  Qed.
  Lemma iterator_lost : forall pre s i src n l s1 cs s2 s3, run_stmts asort gen fuel pre start = Some s -> is_iterator s i ->
    run_stmt asort gen fuel (STracer src (Many i) n l) s = SOk s1 -> let k := length (s_tracers s) in
    run_stmts asort gen fuel cs s1 = Some s2 -> Forall (fun c => ~ loads k c) cs ->
    run_stmt asort gen fuel (STrace k) s2 = SOk s3 -> shows s3 k empty_frame.
  Proof.
    intros pre s i src n l s1 cs s2 s3 Hp (zs & Hi) H1 k H2 Nl H3. pose proof (run_ok _ _ _ start_ok Hp) as O.
    assert (O1 : sess_ok s1) by (apply (e_ok _ _ _ (stmt_effect (STracer src (Many i) n l) s s1 O ltac:(rewrite H1; reflexivity)))).
    assert (A : exists p, nth_error (s_tracers s1) k = Some p /\ p_comps p = i /\ nth_error (st_iters (s_store s1)) i = Some (Iterator [])).
    { cbn [run_stmt] in H1. unfold s_tracer in H1. destruct (new_frame empty_frame (s_store s)) as [f m] eqn:E1. destruct (resolve src m) as [si m1] eqn:E2.
      cbn [resolve] in H1. destruct (iterate m1 i) as [cs0 m3] eqn:E4. destruct (collect (map (lut_of (s_heap s)) cs0)); [|discriminate]. injection H1 as <-.
      destruct (new_frame_grows _ _ _ _ E1) as (_ & _ & _ & Ei). destruct (resolve_frames _ _ _ _ E2) as (_ & I2).
      cbn [s_tracers s_store]. eexists. split; [apply app_new|]. split; [reflexivity|].
      assert (Hi1 : nth_error (st_iters m1) i = Some (Iterator zs)) by (apply I2; rewrite Ei; auto).
      unfold iterate in E4. rewrite Hi1 in E4. injection E4 as <- <-. cbn [st_iters]. apply (upd_same _ _ _ (fun _ => Iterator []) _ Hi1). }
    destruct A as (p1 & P1 & C1 & I1).
    destruct (lasting cs s1 s2 k p1 O1 H2 P1) as (p2 & P2 & _ & _ & C2 & _). specialize (C2 Nl).
    assert (I2 : nth_error (st_iters (s_store s2)) i = Some (Iterator [])).
    { clear -O1 H2 I1. revert s1 O1 H2 I1. induction cs as [|c r IH]; intros s1 O1 H2 I1; [injection H2 as <-; auto|].
      destruct (run_cons _ _ _ _ H2) as (sm & E & Hr). pose proof (stmt_effect _ _ _ O1 E) as Ef. apply (IH sm); auto; [apply (e_ok _ _ _ Ef)|apply (e_iters _ _ _ Ef); auto]. }
    cbn [run_stmt] in H3. rewrite P2 in H3. pose proof (run_ok _ _ _ O1 H2 k p2 P2) as Fr.
    destruct (p_trace asort (s_heap s2) (gen (s_clock s2) (s_heap s2)) fuel p2 (s_store s2)) as [p3 m3|e p3 m3| |] eqn:T; try discriminate. injection H3 as <-.
    assert (Z : nth_error (st_frames m3) (p_frame p3) = Some empty_frame) by (eapply trace_exhausted; [exact Fr| |exact T]; rewrite C2, C1; exact I2).
    exists (p_frame p3). unfold with_tracer, results_object, frame_holds; cbn [s_tracers s_store]. rewrite (upd_same _ _ _ (fun _ => p3) _ P2). cbn. auto.
  Qed.
  (** sources given as an iterator serve one trace only *)
  Lemma sources_used_up : forall pre s k p s1, run_stmts asort gen fuel pre start = Some s -> nth_error (s_tracers s) k = Some p -> is_iterator s (p_sources p) ->
    run_stmt asort gen fuel (STrace k) s = SOk s1 -> exists s2, run_stmt asort gen fuel (STrace k) s1 = SRaise ValueError s2.
  Proof.
    intros pre s k p s1 Hp P (zs & Hi) H. cbn [run_stmt] in H. rewrite P in H.
    destruct (p_trace asort (s_heap s) (gen (s_clock s) (s_heap s)) fuel p (s_store s)) as [p1 m1|e p1 m1| |] eqn:T; try discriminate. injection H as <-.
    pose proof (run_ok _ _ _ start_ok Hp k p P) as Fr.
    assert (Q : nth_error (st_iters m1) (p_sources p) = Some (Iterator []) /\ p_sources p1 = p_sources p /\ fuel <> O).
    { pose proof (trace_ok asort (s_heap s) (gen (s_clock s) (s_heap s)) fuel p (s_store s) Fr) as Kp. rewrite T in Kp. cbn [pres_ok] in Kp.
      destruct Kp as (_ & (Ks & _) & _). split; [|split; [exact Ks|intros ->; discriminate]].
      unfold p_trace in T. destruct fuel as [|n1]; [discriminate|]. cbn [p_states p_state] in T. unfold p_initialize in T at 1.
      match type of T with context [p_reset ?q (s_store s)] => destruct (p_reset q (s_store s)) as [pa ma] eqn:E; destruct (reset_ok _ _ _ _ E) as ((Ga & Ka & Fra & _) & Fa & _ & Ia & Efa) end.
      assert (Sa : p_sources pa = p_sources p) by apply Ka.
      assert (Hia : nth_error (st_iters ma) (p_sources pa) = Some (Iterator zs)) by (rewrite Ia, Sa; auto).
      unfold iterate in T at 1. rewrite Hia in T. destruct zs as [|z zs]; [discriminate|]. cbn [pbind] in T.
      match type of T with p_states _ _ _ _ ?q ?mm = _ => pose proof (states_ok asort (s_heap s) (gen (s_clock s) (s_heap s)) n1 q mm) as Sk end.
      rewrite T in Sk. cbn [pres_ok] in Sk.
      match type of Sk with ?A -> _ => assert (Fr2 : A) end.
      { unfold framed; cbn [st_frames p_frame]. rewrite Efa, app_length, Fa. cbn [length]. lia. }
      destruct (Sk Fr2) as ((_ & _ & _ & G) & _). apply G. cbn [st_iters]. rewrite <- Sa. apply (upd_same _ _ _ (fun _ => Iterator []) _ Hia). }
    destruct Q as (Q1 & Q2 & Q3). cbn [run_stmt]. unfold with_tracer; cbn [s_tracers s_store s_heap s_clock]. rewrite (upd_same _ _ _ (fun _ => p1) _ P).
    unfold p_trace. destruct fuel as [|n1]; [congruence|]. cbn [p_states p_state]. unfold p_initialize at 1.
    match goal with |- context [p_reset ?q m1] => destruct (p_reset q m1) as [pa ma] eqn:E; destruct (reset_ok _ _ _ _ E) as ((Ga & Ka & Fra & _) & Fa & _ & Ia & Efa) end.
    assert (Sa : p_sources pa = p_sources p1) by apply Ka. destruct (iterate_empty ma (p_sources pa)) as (m2 & E2 & _); [rewrite Ia, Sa, Q2; auto|].
    rewrite E2. cbn [pbind]. eauto.
  Qed.
End History.
