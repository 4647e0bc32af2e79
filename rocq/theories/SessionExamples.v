(** * SessionExamples: loaded iterators, shared lists, and sessions at the bench of TraceExamples *)
From Coq Require Import Reals List Bool ZArith Lia Lra.
Import ListNotations.
From Verif Require Import XR Arr Lin Ops Prim Csg Surf World Tracer SpecTrace TraceFacts TraceFacts2 TraceFacts3 WorldExamples TraceExamples Session SpecSession SessionFacts SessionProps.
Open Scope R_scope.

(** ** components loaded from an iterator *)
Section Loaded.
  Variable asort : list xr -> list nat.
  Lemma interact_limit : forall lut l1 l2 g rays hits,
    match interact lut l1 g rays hits with
    | INext rows _ _ _ => exists r' g' f', interact lut l2 g rays hits = INext rows r' g' f'
    | x => interact lut l2 g rays hits = x
    end.
  Proof.
    intros. unfold interact. destruct (lut_pass _ _); auto.
    match goal with |- context [match ?x with [] => _ | _ :: _ => _ end] => destruct x as [|q qs] end; auto.
    match goal with |- context [match collect ?x with _ => _ end] => destruct (collect x) end; auto.
    match goal with |- context [match collect ?x with _ => _ end] => destruct (collect x) end; auto.
    destruct (Z.eqb _ l1), (Z.eqb _ l2); eauto.
  Qed.
  Lemma interact_limit1 : forall lut g rays hits rows r' g' f', interact lut 1 g rays hits = INext rows r' g' f' -> g = O -> f' = true.
  Proof.
    intros lut g rays hits rows r' g' f'. unfold interact. destruct (lut_pass _ _); [|discriminate].
    match goal with |- context [match ?x with [] => _ | _ :: _ => _ end] => destruct x as [|q qs] end; [discriminate|].
    match goal with |- context [match collect ?x with _ => _ end] => destruct (collect x) end; [|discriminate].
    match goal with |- context [match collect ?x with _ => _ end] => destruct (collect x) end; [|discriminate].
    intros H ->. cbn [Z.of_nat Pos.of_succ_nat Z.eqb Pos.eqb] in H. congruence.
  Qed.
  Lemma p_idle : forall h g n q m, p_state q = IDLE -> p_states asort h g n q m = POk q m.
  Proof. intros h g n q m H. destruct n; cbn [p_states]; rewrite H; reflexivity. Qed.
  Lemma t_idle : forall h g n t, t_state t = IDLE -> run_states asort h g n t = TOk t.
  Proof. intros h g n q H. destruct n; cbn [run_states]; rewrite H; reflexivity. Qed.

  Lemma p_init_step : forall h g n p m, p_state p = INITIALIZE -> p_states asort h g (S n) p m = pbind (p_initialize g p m) (p_states asort h g n).
  Proof. intros h g n p m H. cbn [p_states]. rewrite H. reflexivity. Qed.
  Lemma p_prop_step : forall h g n p m, p_state p = PROPAGATE -> p_states asort h g (S n) p m = pbind (p_propagate asort h p m) (p_states asort h g n).
  Proof. intros h g n p m H. cbn [p_states]. rewrite H. reflexivity. Qed.
  Lemma p_inter_step : forall h g n p m, p_state p = INTERACT -> p_states asort h g (S n) p m = pbind (p_interact h p m) (p_states asort h g n).
  Proof. intros h g n p m H. cbn [p_states]. rewrite H. reflexivity. Qed.
  Lemma p_finish_step : forall h g n p m p' m', p_state p = FINISH -> p_states asort h g n p m = POk p' m' -> p_frame p' = p_frame p /\ m' = m.
  Proof.
    intros h g n p m p' m' H E. destruct n as [|n]; cbn [p_states] in E; rewrite H in E; [discriminate|]. cbn [p_finish pbind] in E.
    rewrite p_idle in E by reflexivity. injection E as <- <-. auto.
  Qed.
  Lemma t_finish_step : forall h g n t t', t_state t = FINISH -> run_states asort h g n t = TOk t' -> t_frame t' = t_frame t.
  Proof.
    intros h g n t t' H E. destruct n as [|n]; cbn [run_states] in E; rewrite H in E; [discriminate|]. cbn [st_finish tbind] in E.
    rewrite t_idle in E by reflexivity. injection E as <-. reflexivity.
  Qed.
  Lemma p_stuck : forall h g p m, p_state p <> IDLE -> p_states asort h g 0 p m = PFuel.
  Proof. intros h g p m H. cbn [p_states]. destruct (p_state p); congruence. Qed.
  Lemma t_stuck : forall h g t, t_state t <> IDLE -> run_states asort h g 0 t = TFuel.
  Proof. intros h g t H. cbn [run_states]. destruct (t_state t); congruence. Qed.

  Definition first_rows (lut : list (Z * surf)) (l : Z) (rays : list col) (comps : list shape) (f : frame) : Prop :=
    match interact lut l 0 rays (map (propagate asort comps) rays) with
    | IAllDead => f = empty_frame
    | INext rows _ _ _ => f = Frame rows None
    | _ => False
    end.
  Lemma first_rows_limit : forall lut l1 l2 rays comps f f', first_rows lut l1 rays comps f -> first_rows lut l2 rays comps f' -> f = f'.
  Proof.
    intros lut l1 l2 rays comps f f'. unfold first_rows. set (hits := map _ rays). clearbody hits. pose proof (interact_limit lut l1 l2 0 rays hits) as L.
    destruct (interact lut l1 0 rays hits); try contradiction; intros A B.
    - rewrite L in B. congruence.
    - destruct L as (? & ? & ? & L). rewrite L in B. congruence.
  Qed.
  Lemma t_init_step : forall h gen fuel t t1, trace asort h gen (S fuel) t = TOk t1 -> exists t2, run_states asort h gen fuel t2 = TOk t1 /\ t_state t2 = PROPAGATE /\
     t_comps t2 = t_comps t /\ t_lut t2 = t_lut t /\ t_limit t2 = t_limit t /\ t_gen t2 = O /\ t_frame t2 = empty_frame /\ t_rays t2 = renumber 0 (concat (map (fun s => gen s (t_n t)) (t_sources t))).
  Proof.
    intros h gen fuel t t1 T. unfold trace in T.
    rewrite TraceFacts5.run_S in T. cbn [t_state set_state] in T. unfold st_initialize in T at 1.
    destruct t as [fr st g c xs ys n l rays hits lt]. cbn [t_limit t_comps t_lut t_n t_sources] in *.
    cbn [t_sources reset set_gen set_state set_frame set_complete t_n] in T. destruct xs as [|x xs]; [discriminate|]. cbn [tbind] in T.
    eexists. split; [exact T|]. repeat split; reflexivity.
  Qed.
  Lemma t_prop_step : forall h gen fuel t t1, t_state t = PROPAGATE -> run_states asort h gen (S fuel) t = TOk t1 -> exists comps t2, collect (map (shape_of h) (t_comps t)) = Some comps /\
     run_states asort h gen fuel t2 = TOk t1 /\ t_state t2 = INTERACT /\ t_lut t2 = t_lut t /\ t_limit t2 = t_limit t /\ t_gen t2 = t_gen t /\ t_frame t2 = t_frame t /\ t_rays t2 = t_rays t /\
     t_hits t2 = map (propagate asort comps) (t_rays t).
  Proof.
    intros h gen fuel t t1 L T. rewrite TraceFacts5.run_S in T. rewrite L in T. unfold st_propagate in T.
    destruct (collect (map (shape_of h) (t_comps t))) as [comps|]; [|discriminate]. cbn [tbind] in T. exists comps. eexists. split; [auto|]. split; [exact T|]. repeat split; reflexivity.
  Qed.
  Lemma t_first : forall h gen fuel t t1, t_limit t = 1%Z -> trace asort h gen fuel t = TOk t1 ->
    exists comps lut, collect (map (shape_of h) (t_comps t)) = Some comps /\ collect (map (entry_of h) (t_lut t)) = Some lut /\
      first_rows lut 1 (renumber 0 (concat (map (fun s => gen s (t_n t)) (t_sources t)))) comps (get_results t1).
  Proof.
    intros h gen fuel t t1 L T. destruct fuel as [|n1]; [unfold trace in T; rewrite t_stuck in T by discriminate; discriminate|].
    destruct (t_init_step _ _ _ _ _ T) as (t2 & T2 & S2 & C2 & L2 & M2 & G2 & F2 & R2). clear T. rewrite <- R2, <- C2, <- L2. rewrite L in M2. clear R2 C2 L2 L.
    destruct n1 as [|n2]; [rewrite t_stuck in T2 by congruence; discriminate|].
    destruct (t_prop_step _ _ _ _ _ S2 T2) as (comps & t3 & C3 & T3 & S3 & L3 & M3 & G3 & F3 & R3 & H3). clear T2. exists comps.
    rewrite <- L3, <- R3 in *. rewrite M2 in M3. rewrite G2 in G3. rewrite F2 in F3. clear L3 R3.
    destruct n2 as [|n3]; [rewrite t_stuck in T3 by congruence; discriminate|].
    rewrite TraceFacts5.run_S in T3. rewrite S3 in T3. unfold st_interact in T3. rewrite M3, G3, F3, H3 in T3.
    destruct (collect (map (entry_of h) (t_lut t3))) as [lut|]; [|discriminate]. exists lut. split; [auto|]. split; [auto|]. unfold first_rows.
    pose proof (interact_limit1 lut 0 (t_rays t3) (map (propagate asort comps) (t_rays t3))) as F1.
    destruct (interact lut 1 0 (t_rays t3) (map (propagate asort comps) (t_rays t3))) as [|rows r1 g1 f1| |]; cbn [tbind] in T3; try discriminate.
    - apply t_finish_step in T3; [|reflexivity]. unfold get_results. rewrite T3. exact F3.
    - rewrite (F1 _ _ _ _ eq_refl eq_refl) in T3. apply t_finish_step in T3; [|reflexivity]. unfold get_results. rewrite T3. reflexivity.
  Qed.
  (** *** no surface has the number -1 *)
  Definition real_ids (lut : list (Z * loc)) : Prop := Forall (fun e => (0 <= fst e)%Z) lut.
  Lemma lut_fuel_ids : forall n h l x, lut_fuel n h l = Some x -> real_ids x.
  Proof.
    induction n as [|n IH]; intros h l x H; [discriminate|]. cbn [lut_fuel] in H. destruct (get h l) as [o|]; [|discriminate].
    destruct (o_kind o) as [|pr mt|op lc rc|gs]; try discriminate.
    - injection H as <-. constructor; [cbn; lia|constructor].
    - destruct (lut_fuel n h lc) as [a|] eqn:A; [|discriminate]. destruct (lut_fuel n h rc) as [b|] eqn:B; [|discriminate]. injection H as <-.
      apply Forall_app. split; [apply (IH _ _ _ A)|apply (IH _ _ _ B)].
  Qed.
  Lemma collected_ids : forall h ls luts, collect (map (lut_of h) ls) = Some luts -> real_ids (concat luts).
  Proof.
    intros h ls. induction ls as [|l ls IH]; intros luts H; cbn [map collect] in H; [injection H as <-; constructor|].
    destruct (lut_of h l) as [x|] eqn:X; [|discriminate]. destruct (collect (map (lut_of h) ls)) as [ys|]; [|discriminate]. injection H as <-.
    cbn [concat]. apply Forall_app. split; [apply (lut_fuel_ids _ _ _ _ X)|apply IH; auto].
  Qed.
  Lemma fresh_ids : forall gen fuel c s s' k p, final (run_stmt asort gen fuel c s) = Some s' ->
    nth_error (s_tracers s) k = None -> nth_error (s_tracers s') k = Some p -> real_ids (p_lut p).
  Proof.
    intros gen fuel c s s' k p H N P.
    assert (U : forall j f m n, nth_error (s_tracers (with_tracer j f (Session (s_heap s) m (s_tracers s) n))) k = Some p -> False).
    { intros j f m n Q. unfold with_tracer in Q; cbn [s_tracers] in Q. apply nth_error_None in N.
      assert (L : (k < length (list_upd (s_tracers s) j f))%nat) by (apply nth_error_Some; congruence). rewrite upd_length in L. lia. }
    assert (W : forall f j, nth_error (s_tracers (with_tracer j f s)) k = Some p -> False) by (intros f j; destruct s; apply (U j f)).
    destruct c as [wc|xs|xs|i xs|src comps n limit|j n|j limit|j comps|j|j|j]; cbn [run_stmt] in H.
    - destruct (run_call asort wc (s_heap s)) as [h|e h|]; try discriminate; injection H as <-; cbn [s_tracers] in P; congruence.
    - injection H as <-; cbn [s_tracers] in P; congruence.
    - injection H as <-; cbn [s_tracers] in P; congruence.
    - destruct (nth_error (st_iters (s_store s)) i) as [[ys|ys]|]; injection H as <-; cbn [s_tracers] in P; congruence.
    - unfold s_tracer in H. destruct (new_frame empty_frame (s_store s)) as [f m]. destruct (resolve src m) as [si m1].
      destruct (resolve comps m1) as [ci m2]. destruct (iterate m2 ci) as [cs m3].
      destruct (collect (map (lut_of (s_heap s)) cs)) as [luts|] eqn:E; injection H as <-; cbn [s_tracers] in P; [|congruence].
      apply nth_error_None in N. rewrite nth_error_app2 in P by auto.
      destruct (k - length (s_tracers s))%nat as [|[|q]]; cbn in P; try discriminate. injection P as <-. cbn [p_lut]. apply (collected_ids _ _ _ E).
    - destruct (nth_error (s_tracers s) j); injection H as <-; [exfalso; eauto|congruence].
    - destruct (nth_error (s_tracers s) j); injection H as <-; [exfalso; eauto|congruence].
    - destruct (nth_error (s_tracers s) j); [|injection H as <-; congruence]. destruct (resolve comps (s_store s)). injection H as <-. exfalso; eauto.
    - destruct (nth_error (s_tracers s) j); [|injection H as <-; congruence]. destruct (p_reset p0 (s_store s)). injection H as <-. exfalso; eauto.
    - destruct (nth_error (s_tracers s) j); [|injection H as <-; congruence].
      destruct (p_trace asort (s_heap s) (gen (s_clock s) (s_heap s)) fuel p0 (s_store s)); try discriminate; injection H as <-; exfalso; eauto.
    - destruct (nth_error (s_tracers s) j); injection H as <-; cbn [s_tracers] in P; congruence.
  Qed.
  Lemma tables_ok : forall gen fuel cs s s', sess_ok s -> (forall k p, nth_error (s_tracers s) k = Some p -> real_ids (p_lut p)) ->
    run_stmts asort gen fuel cs s = Some s' -> forall k p, nth_error (s_tracers s') k = Some p -> real_ids (p_lut p).
  Proof.
    intros gen fuel cs. induction cs as [|c r IH]; intros s s' O L H; [injection H as <-; auto|].
    destruct (run_cons _ _ _ _ _ _ _ H) as (s1 & E & H1). pose proof (stmt_effect _ _ _ _ _ _ O E) as Ef.
    apply (IH s1); [apply (e_ok _ _ _ Ef)| |auto]. intros k p P. destruct (nth_error (s_tracers s) k) as [q|] eqn:Q.
    - destruct (e_tracers _ _ _ Ef k q Q) as (p' & P' & _ & _ & _ & _ & T & _). rewrite P in P'. injection P' as <-. rewrite T. eauto.
    - eapply fresh_ids; eauto.
  Qed.
  Lemma entries_ids : forall h ls lut, collect (map (entry_of h) ls) = Some lut -> real_ids ls -> Forall (fun e : Z * surf => (0 <= fst e)%Z) lut.
  Proof.
    intros h ls. induction ls as [|l ls IH]; intros lut H R; cbn [map collect] in H; [injection H as <-; constructor|].
    destruct (entry_of h l) as [x|] eqn:X; [|discriminate]. destruct (collect (map (entry_of h) ls)) as [ys|]; [|discriminate]. injection H as <-.
    inversion R as [|? ? R1 R2]; subst. constructor; [|apply IH; auto]. unfold entry_of in X. destruct (surf_of h (snd l)); [|discriminate]. injection X as <-. exact R1.
  Qed.
  Lemma missed_pass : forall lut cells, Forall (fun e : Z * surf => (0 <= fst e)%Z) lut -> Forall (fun x => snd (hit_of x) = (-1)%Z) cells -> lut_pass lut cells = Some cells.
  Proof.
    intros lut cells L M. induction L as [|[i s] lut L1 L IH]; [reflexivity|]. cbn [lut_pass].
    assert (E : lut_entry (i, s) cells = Some cells).
    { unfold lut_entry. replace (existsb _ cells) with false; [reflexivity|]. symmetry. apply not_true_is_false. intro X. apply existsb_exists in X.
      destruct X as (x & I & X). rewrite Forall_forall in M. rewrite (M x I) in X. apply Z.eqb_eq in X. cbn [fst] in *. lia. }
    rewrite E. exact IH.
  Qed.
  Lemma missed_dead : forall lut limit g rays, Forall (fun e : Z * surf => (0 <= fst e)%Z) lut -> interact lut limit g rays (map (propagate asort []) rays) = IAllDead.
  Proof.
    intros lut limit g rays L. destruct (no_hits_dead asort lut limit g rays) as [X|X]; [exact X|]. exfalso. revert X. unfold interact.
    rewrite missed_pass; auto.
    - match goal with |- context [match ?x with [] => _ | _ :: _ => _ end] => destruct x as [|q qs] end; [discriminate|].
      match goal with |- context [match collect ?x with _ => _ end] => destruct (collect x) end; [|discriminate].
      match goal with |- context [match collect ?x with _ => _ end] => destruct (collect x) end; [|discriminate].
      destruct (Z.eqb _ limit); discriminate.
    - apply Forall_map. apply Forall_forall. intros [h0 c] I. apply in_combine_l in I. apply in_map_iff in I. destruct I as (c0 & <- & _). reflexivity.
  Qed.
  Lemma p_first : forall h gen fuel p m p' m' xs ys, framed p m -> nth_error (st_iters m) (p_sources p) = Some (ListObj xs) ->
    nth_error (st_iters m) (p_comps p) = Some (Iterator ys) -> p_trace asort h gen fuel p m = POk p' m' ->
    exists comps lut f, collect (map (shape_of h) ys) = Some comps /\ collect (map (entry_of h) (p_lut p)) = Some lut /\
      first_rows lut (p_limit p) (renumber 0 (concat (map (fun s => gen s (p_n p)) xs))) comps f /\ nth_error (st_frames m') (p_frame p') = Some f.
  Proof.
    intros h gen fuel p m p' m' xs ys Fr Hs Hc H. unfold p_trace in H.
    destruct fuel as [|n1]; [rewrite p_stuck in H by discriminate; discriminate|]. rewrite p_init_step in H by reflexivity.
    unfold p_initialize in H. unfold p_reset, new_frame in H. cbn [p_sources p_comps p_n p_limit p_rays p_hits p_lut p_frame p_gen p_complete] in H.
    set (m1 := Store (st_iters m) (st_frames m ++ [empty_frame])) in *.
    assert (Hs1 : nth_error (st_iters m1) (p_sources p) = Some (ListObj xs)) by exact Hs.
    assert (Hc1 : nth_error (st_iters m1) (p_comps p) = Some (Iterator ys)) by exact Hc.
    assert (Fa1 : nth_error (st_frames m1) (length (st_frames m)) = Some empty_frame) by apply app_new.
    assert (Fb1 : frame_at m1 (length (st_frames m)) = empty_frame) by (unfold frame_at; apply nth_error_nth; exact Fa1). clearbody m1.
    rewrite (iterate_list _ _ _ Hs1) in H.
    set (rays0 := renumber 0 (concat (map (fun s : loc => gen s (p_n p)) xs))) in *. destruct xs as [|x xs]; [discriminate|]. fold rays0 in H. clearbody rays0. cbn [pbind] in H.
    destruct n1 as [|n2]; [rewrite p_stuck in H by discriminate; discriminate|]. rewrite p_prop_step in H by reflexivity.
    unfold p_propagate in H. cbn [p_comps p_rays p_frame p_gen p_complete p_sources p_n p_limit p_hits p_lut] in H.
    unfold iterate in H. rewrite Hc1 in H. set (m2 := Store (list_upd (st_iters m1) (p_comps p) (fun _ : iterable => Iterator [])) (st_frames m1)) in *.
    assert (Hc2 : nth_error (st_iters m2) (p_comps p) = Some (Iterator [])) by (apply (upd_same _ _ _ (fun _ => Iterator []) _ Hc1)).
    assert (Fa2 : nth_error (st_frames m2) (length (st_frames m)) = Some empty_frame) by exact Fa1.
    assert (Fb2 : frame_at m2 (length (st_frames m)) = empty_frame) by (unfold frame_at; apply nth_error_nth; exact Fa2). clearbody m2.
    destruct (collect (map (shape_of h) ys)) as [comps|]; [|discriminate]. cbn [pbind] in H.
    destruct n2 as [|n3]; [rewrite p_stuck in H by discriminate; discriminate|]. rewrite p_inter_step in H by reflexivity.
    unfold p_interact in H. cbn [p_comps p_rays p_frame p_gen p_complete p_sources p_n p_limit p_hits p_lut] in H.
    destruct (collect (map (entry_of h) (p_lut p))) as [lut|] eqn:El; [|discriminate].
    destruct (interact lut (p_limit p) 0 rays0 (map (propagate asort comps) rays0)) as [|rows r1 g1 f1| |] eqn:EI; cbn [pbind] in H; try discriminate.
    - exists comps, lut, empty_frame. split; [auto|]. split; [auto|]. split; [unfold first_rows; rewrite EI; auto|].
      apply p_finish_step in H; [|reflexivity]. destruct H as (-> & ->). exact Fa2.
    - exists comps, lut, (Frame rows None). split; [auto|]. split; [auto|]. split; [unfold first_rows; rewrite EI; auto|].
      clear EI. rewrite Fb2 in H. unfold new_frame in H. cbn [f_rows empty_frame app pbind] in H.
      set (m3 := Store (st_iters m2) (st_frames m2 ++ [Frame rows None])) in *.
      assert (Hc3 : nth_error (st_iters m3) (p_comps p) = Some (Iterator [])) by exact Hc2.
      assert (Fa3 : nth_error (st_frames m3) (length (st_frames m2)) = Some (Frame rows None)) by apply app_new. clearbody m3.
      destruct f1.
      + apply p_finish_step in H; [|reflexivity]. destruct H as (-> & ->). exact Fa3.
      + destruct n3 as [|n4]; [rewrite p_stuck in H by discriminate; discriminate|]. rewrite p_prop_step in H by reflexivity.
        unfold p_propagate in H. cbn [p_comps p_rays p_frame p_gen p_complete p_sources p_n p_limit p_hits p_lut] in H.
        destruct (iterate_empty m3 (p_comps p) Hc3) as (m4 & E4 & F4). rewrite E4 in H. cbn [map collect pbind] in H.
        destruct n4 as [|n5]; [rewrite p_stuck in H by discriminate; discriminate|]. rewrite p_inter_step in H by reflexivity.
        unfold p_interact in H. cbn [p_comps p_rays p_frame p_gen p_complete p_sources p_n p_limit p_hits p_lut] in H. rewrite El in H.
        destruct (no_hits_dead asort lut (p_limit p) g1 r1) as [X|X]; rewrite X in H; cbn [pbind] in H; [|discriminate].
        apply p_finish_step in H; [|reflexivity]. destruct H as (-> & ->). rewrite F4. exact Fa3.
  Qed.
  (** and it does end *)
  Lemma p_ends : forall h gen n p m xs ys comps lut f, nth_error (st_iters m) (p_sources p) = Some (ListObj xs) ->
    nth_error (st_iters m) (p_comps p) = Some (Iterator ys) -> xs <> [] -> real_ids (p_lut p) ->
    collect (map (shape_of h) ys) = Some comps -> collect (map (entry_of h) (p_lut p)) = Some lut ->
    first_rows lut 1 (renumber 0 (concat (map (fun s => gen s (p_n p)) xs))) comps f ->
    exists p' m', p_trace asort h gen (6 + n) p m = POk p' m'.
  Proof.
    intros h gen n p m xs ys comps lut f Hs Hc Nx Rl Co El Fi. unfold p_trace. change (6 + n)%nat with (S (5 + n)). rewrite p_init_step by reflexivity.
    unfold p_initialize, p_reset, new_frame. cbn [p_sources p_comps p_n p_limit p_rays p_hits p_lut p_frame p_gen p_complete].
    set (m1 := Store (st_iters m) (st_frames m ++ [empty_frame])) in *.
    assert (Hs1 : nth_error (st_iters m1) (p_sources p) = Some (ListObj xs)) by exact Hs.
    assert (Hc1 : nth_error (st_iters m1) (p_comps p) = Some (Iterator ys)) by exact Hc. clearbody m1.
    rewrite (iterate_list _ _ _ Hs1).
    set (rays0 := renumber 0 (concat (map (fun s : loc => gen s (p_n p)) xs))) in *. destruct xs as [|x xs]; [congruence|]. fold rays0. clearbody rays0. cbn [pbind].
    change (5 + n)%nat with (S (4 + n)). rewrite p_prop_step by reflexivity.
    unfold p_propagate. cbn [p_comps p_rays p_frame p_gen p_complete p_sources p_n p_limit p_hits p_lut].
    unfold iterate. rewrite Hc1. set (m2 := Store (list_upd (st_iters m1) (p_comps p) (fun _ : iterable => Iterator [])) (st_frames m1)) in *.
    assert (Hc2 : nth_error (st_iters m2) (p_comps p) = Some (Iterator [])) by (apply (upd_same _ _ _ (fun _ => Iterator []) _ Hc1)). clearbody m2.
    rewrite Co. cbn [pbind]. change (4 + n)%nat with (S (3 + n)). rewrite p_inter_step by reflexivity.
    unfold p_interact. cbn [p_comps p_rays p_frame p_gen p_complete p_sources p_n p_limit p_hits p_lut]. rewrite El.
    assert (F : forall k q mm, p_state q = FINISH -> exists p' m', p_states asort h gen (S k) q mm = POk p' m').
    { intros k q mm Q. cbn [p_states]. rewrite Q. cbn [p_finish pbind]. rewrite p_idle by reflexivity. eauto. }
    unfold first_rows in Fi. pose proof (interact_limit lut 1 (p_limit p) 0 rays0 (map (propagate asort comps) rays0)) as IL.
    destruct (interact lut 1 0 rays0 (map (propagate asort comps) rays0)) as [|rows r1 g1 f1| |]; try contradiction.
    - rewrite IL. cbn [pbind]. change (3 + n)%nat with (S (2 + n)). apply F. reflexivity.
    - destruct IL as (r2 & g2 & f2 & IL). rewrite IL. unfold new_frame. cbn [pbind]. destruct f2.
      + change (3 + n)%nat with (S (2 + n)). apply F. reflexivity.
      + change (3 + n)%nat with (S (2 + n)). rewrite p_prop_step by reflexivity. unfold p_propagate.
        cbn [p_comps p_rays p_frame p_gen p_complete p_sources p_n p_limit p_hits p_lut].
        match goal with |- context [iterate ?mm (p_comps p)] => destruct (iterate_empty mm (p_comps p) Hc2) as (m4 & E4 & F4) end. rewrite E4. cbn [map collect pbind].
        change (2 + n)%nat with (S (1 + n)). rewrite p_inter_step by reflexivity. unfold p_interact.
        cbn [p_comps p_rays p_frame p_gen p_complete p_sources p_n p_limit p_hits p_lut]. rewrite El.
        rewrite missed_dead by (apply (entries_ids _ _ _ El Rl)). cbn [pbind]. apply (F n). reflexivity.
  Qed.
  Lemma loaded_iterator : forall gen n pre s k i xs ys p s1 t1, run_stmts asort gen (6 + n) pre start = Some s ->
    nth_error (s_tracers s) k = Some p -> holds_list s (p_sources p) xs -> nth_error (st_iters (s_store s)) i = Some (Iterator ys) ->
    run_stmt asort gen (6 + n) (SLoad k (Many i)) s = SOk s1 ->
    trace asort (s_heap s) (gen (s_clock s) (s_heap s)) (6 + n)
      (Tracer empty_frame (p_state p) (p_gen p) (p_complete p) xs ys (p_n p) 1 (p_rays p) (p_hits p) (p_lut p)) = TOk t1 ->
    exists s2, run_stmt asort gen (6 + n) (STrace k) s1 = SOk s2 /\ shows s2 k (get_results t1).
  Proof.
    intros gen n pre s k i xs ys p s1 t1 Hp P Hs Hi H1 T. pose proof (run_ok _ _ _ _ _ _ start_ok Hp k p P) as Fr.
    assert (Rl : real_ids (p_lut p)) by (refine (tables_ok gen _ pre start s start_ok _ Hp k p P); intros [|?] ? ?; discriminate).
    cbn [run_stmt] in H1. rewrite P in H1. cbn [resolve] in H1. injection H1 as <-.
    cbn [run_stmt]. unfold with_tracer; cbn [s_tracers s_store s_heap s_clock].
    pose proof (upd_same _ _ _ (fun p : ptracer => PTracer (p_frame p) (p_state p) (p_gen p) (p_complete p) (p_sources p) i (p_n p) (p_limit p) (p_rays p) (p_hits p) (p_lut p)) _ P) as U.
    rewrite U. cbn beta. set (q := PTracer _ _ _ _ _ _ _ _ _ _ _) in *.
    assert (Nx : xs <> []) by (intros ->; discriminate T).
    match type of T with trace _ _ _ _ ?tt = _ => pose proof (t_first (s_heap s) (gen (s_clock s) (s_heap s)) _ tt t1 eq_refl T) as B end.
    destruct B as (comps & lut & B1 & B2 & B3). cbn [t_comps t_lut t_n t_sources] in *.
    destruct (p_ends (s_heap s) (gen (s_clock s) (s_heap s)) n q (s_store s) xs ys comps lut _ Hs Hi Nx Rl B1 B2 B3) as (p2 & m2 & E). rewrite E.
    destruct (p_first _ _ _ q _ _ _ xs ys Fr Hs Hi E) as (comps' & lut' & f & A1 & A2 & A3 & A4).
    rewrite A1 in B1. injection B1 as <-. change (p_lut q) with (p_lut p) in A2. rewrite A2 in B2. injection B2 as <-.
    eexists. split; [reflexivity|]. exists (p_frame p2). unfold results_object, frame_holds; cbn [s_tracers s_store]. rewrite (upd_same _ _ _ (fun _ => p2) _ U). cbn [option_map].
    split; [reflexivity|]. rewrite A4. f_equal. exact (first_rows_limit _ _ _ _ _ _ _ A3 B3).
  Qed.
End Loaded.

(** ** a tracer looks at the lists it was given *)
Section Shared.
  Variable asort : list xr -> list nat.
  Variable gen : nat -> heap -> loc -> nat -> list col.
  Variable fuel : nat.
  Lemma shared : forall pre s i j xs0 ys0 n l s1 cs s2 xs ys, run_stmts asort gen fuel pre start = Some s ->
    holds_list s i xs0 -> holds_list s j ys0 -> run_stmt asort gen fuel (STracer (Many i) (Many j) n l) s = SOk s1 ->
    let k := length (s_tracers s) in run_stmts asort gen fuel cs s1 = Some s2 -> Forall (fun c => ~ loads k c) cs ->
    holds_list s2 i xs -> holds_list s2 j ys ->
    exists t t0, tracer_is s2 k xs ys t /\ new_tracer (s_heap s) xs0 ys0 n l = Some t0 /\ t_lut t = t_lut t0.
  Proof.
    intros pre s i j xs0 ys0 n l s1 cs s2 xs ys Hp Hi Hj H1 k H2 Nl Hi2 Hj2. pose proof (run_ok _ _ _ _ _ _ start_ok Hp) as O.
    pose proof (stmt_effect asort gen fuel (STracer (Many i) (Many j) n l) s s1 O ltac:(rewrite H1; reflexivity)) as Ef.
    cbn [run_stmt] in H1. unfold s_tracer in H1. destruct (new_frame empty_frame (s_store s)) as [f m] eqn:E1. cbn [resolve] in H1.
    destruct (new_frame_grows _ _ _ _ E1) as (_ & _ & Efm & Ei). rewrite (iterate_list m j ys0) in H1 by (rewrite Ei; exact Hj).
    destruct (collect (map (lut_of (s_heap s)) ys0)) as [luts|] eqn:El; [|discriminate]. injection H1 as <-. cbn [s_tracers] in *.
    destruct (lasting asort gen fuel cs _ s2 k _ (e_ok _ _ _ Ef) H2 (app_new _ _ _)) as (p2 & P2 & S2 & L2 & C2 & _). specialize (C2 Nl). cbn [p_sources p_comps p_lut] in *.
    pose proof (run_ok _ _ _ _ _ _ (e_ok _ _ _ Ef) H2 k p2 P2) as Fr.
    destruct (nth_error (st_frames (s_store s2)) (p_frame p2)) as [fr|] eqn:Fh; [|apply nth_error_None in Fh; unfold framed in Fr; lia].
    eexists. eexists. split; [exists p2, fr; split; [exact P2|]; split; [rewrite S2; exact Hi2|]; split; [rewrite C2; exact Hj2|]; split; [exact Fh|reflexivity]|].
    split; [unfold new_tracer; rewrite El; reflexivity|]. cbn [t_lut]. exact L2.
  Qed.
End Shared.

(** ** sessions at the bench *)
Lemma run_app : forall asort gen fuel a b s, run_stmts asort gen fuel (a ++ b) s =
  match run_stmts asort gen fuel a s with Some s1 => run_stmts asort gen fuel b s1 | None => None end.
Proof.
  intros asort gen fuel a b. induction a as [|c a IH]; intros s; [reflexivity|]. cbn [app run_stmts].
  destruct (run_stmt asort gen fuel c s); auto.
Qed.
Lemma run_world : forall asort gen fuel cs h h' m tr n, run_prog asort cs h = Ok h' ->
  run_stmts asort gen fuel (map SWorld cs) (Session h m tr n) = Some (Session h' m tr n).
Proof.
  intros asort gen fuel cs. induction cs as [|c cs IH]; intros h h' m tr n H; [injection H as <-; reflexivity|].
  cbn [map run_stmts run_stmt s_heap s_store s_tracers s_clock]. cbn [run_prog] in H. destruct (run_call asort c h) as [h1|e h1|]; try discriminate.
  apply IH; auto.
Qed.
Definition lamp (int : R) : nat -> heap -> loc -> nat -> list col := fun _ _ => emit 1 int.
Definition bench_session (cs : list stmt) : list stmt := map SWorld bench_calls ++ cs.
Lemma bench_start : forall asort gen fuel cs s', exists h, on_bench asort h /\
  (run_stmts asort gen fuel cs (Session h (Store [] []) [] 0) = Some s' -> run_stmts asort gen fuel (bench_session cs) start = Some s').
Proof.
  intros asort gen fuel cs s'. destruct (bench asort) as (h & B). exists h. split; [exact B|]. intro H.
  unfold bench_session. rewrite run_app. unfold start. rewrite (run_world _ _ _ _ _ h) by apply B. exact H.
Qed.
Definition with_lists : list stmt := [SList [9%nat]; SList [0; 2]%nat; STracer (Many 0%nat) (Many 1%nat) 1 10].
Definition with_iterator : list stmt := [SList [9%nat]; SIter [0; 2]%nat; STracer (Many 0%nat) (Many 1%nat) 1 10].
Lemma lists_made : forall asort gen fuel h, on_bench asort h -> exists s t, run_stmts asort gen fuel with_lists (Session h (Store [] []) [] 0) = Some s /\
  s_heap s = h /\ s_clock s = 0%nat /\ length (s_tracers s) = 1%nat /\ tracer_is s 0 [9%nat] [0; 2]%nat t /\ new_tracer h [9%nat] [0; 2]%nat 1 10 = Some t.
Proof.
  intros asort gen fuel h (_ & S0 & S1 & S2 & S3 & L0 & L1 & L2 & L3). do 2 eexists. split.
  - cbn [with_lists run_stmts run_stmt s_store st_iters st_frames s_heap s_tracers s_clock app]. unfold s_tracer.
    cbn [new_frame resolve s_store st_iters st_frames s_heap s_tracers s_clock app length]. unfold iterate; cbn [st_iters nth_error]. cbn [map collect]. rewrite L0, L2. cbn [collect]. reflexivity.
  - cbn [s_heap s_clock s_tracers length app]. split; [auto|]. split; [auto|]. split; [auto|]. split.
    + eexists. eexists. split; [reflexivity|]. split; [reflexivity|]. split; [reflexivity|]. split; [reflexivity|]. reflexivity.
    + unfold new_tracer. cbn [map collect]. rewrite L0, L2. reflexivity.
Qed.
(** lists: both rows are shown *)
Lemma lists_case : forall asort, exists s t' s', run_stmts asort (lamp 1) 9 (bench_session with_lists) start = Some s /\
  run_stmt asort (lamp 1) 9 (STrace 0) s = SOk s' /\ tracer_is s' 0 [9%nat] [0; 2]%nat t' /\ shows s' 0 (get_results t') /\ f_rows (get_results t') = [out_row 1; back_row 1].
Proof.
  intros asort. destruct (bench asort) as (h & B). destruct (lists_made asort (lamp 1) 9 h B) as (s & t & R & Eh & Ec & _ & Ti & Nt).
  destruct (there_and_back asort h B 1 10%Z 0%nat t ltac:(lia) ltac:(lia) Nt) as (t' & Tr & Rows).
  assert (Rs : run_stmts asort (lamp 1) 9 (bench_session with_lists) start = Some s).
  { unfold bench_session. rewrite run_app. unfold start. rewrite (run_world _ _ _ _ _ h) by apply B. exact R. }
  pose proof (trace_lists asort (lamp 1) 9 _ s 0%nat _ _ t Rs Ti) as X. rewrite Eh, Ec in X. change (trace asort h (lamp 1 0%nat h) 9 t) with (trace asort h (emit 1 1) (9 + 0) t) in X. rewrite Tr in X.
  destruct X as (s' & H1 & H2 & H3 & _). exists s, t', s'. auto.
Qed.
(** the same scene from a generator: no rows *)
Lemma iterator_case : forall asort, exists s s', run_stmts asort (lamp 1) 9 (bench_session with_iterator) start = Some s /\
  run_stmt asort (lamp 1) 9 (STrace 0) s = SOk s' /\ shows s' 0 empty_frame.
Proof.
  intros asort. destruct (bench asort) as (h & B). pose proof B as (_ & S0 & S1 & S2 & S3 & L0 & L1 & L2 & L3).
  assert (R : exists s, run_stmts asort (lamp 1) 9 with_iterator (Session h (Store [] []) [] 0) = Some s /\ s =
    Session h (Store [ListObj [9%nat]; Iterator []] [empty_frame]) [PTracer 0 IDLE 0 false 0 1 1 10 [] [] [(0%Z, 0%nat); (2%Z, 2%nat)]] 0).
  { eexists. split; [|reflexivity]. cbn [with_iterator run_stmts run_stmt s_store st_iters st_frames s_heap s_tracers s_clock app]. unfold s_tracer.
    cbn [new_frame resolve s_store st_iters st_frames s_heap s_tracers s_clock app length]. unfold iterate; cbn [st_iters nth_error]. cbn [map collect]. rewrite L0, L2. reflexivity. }
  destruct R as (s & R & ->). eexists.
  assert (CL : collect (map (entry_of h) [(0%Z, 0%nat); (2%Z, 2%nat)]) = Some [(0%Z, sheet 0 1 Mirror); (2%Z, sheet 2 (-2) Absorber)])
    by (cbn [map]; unfold entry_of, surf_of; cbn [fst snd]; rewrite S0, S2; reflexivity).
  assert (D : exists p m, p_trace asort h (lamp 1 0%nat h) 9 (PTracer 0 IDLE 0 false 0 1 1 10 [] [] [(0%Z, 0%nat); (2%Z, 2%nat)])
      (Store [ListObj [9%nat]; Iterator []] [empty_frame]) = POk p m /\ nth_error (st_frames m) (p_frame p) = Some empty_frame).
  { assert (Q : exists p m, p_trace asort h (lamp 1 0%nat h) 9 (PTracer 0 IDLE 0 false 0 1 1 10 [] [] [(0%Z, 0%nat); (2%Z, 2%nat)])
      (Store [ListObj [9%nat]; Iterator []] [empty_frame]) = POk p m).
    { unfold p_trace. rewrite p_init_step by reflexivity. cbn [p_frame p_gen p_complete p_sources p_comps p_n p_limit p_rays p_hits p_lut]. unfold p_initialize at 1, p_reset at 1.
      cbn [new_frame st_iters st_frames length app p_sources p_comps p_n p_limit p_rays p_hits p_lut p_frame p_gen p_complete]. unfold iterate at 1. cbn [nth_error st_iters pbind].
      rewrite p_prop_step by reflexivity. unfold p_propagate at 1, iterate at 1. cbn [p_comps st_iters nth_error map collect pbind p_frame p_gen p_complete p_sources p_n p_limit p_rays p_hits p_lut].
      rewrite p_inter_step by reflexivity. unfold p_interact at 1. cbn [p_lut p_limit p_gen p_rays p_hits]. rewrite CL.
      match goal with |- context [interact ?a ?b ?c ?d (map (propagate asort []) ?d)] => destruct (no_hits_dead asort a b c d) as [X|X] end.
      - rewrite X. cbn [pbind p_states p_state p_finish]. eauto.
      - exfalso. revert X. unfold interact, lamp, emit. cbn [map concat repeat app renumber combine fst snd]. unfold propagate; cbn [fold_left]. unfold start_cell.
        cbn [lut_pass lut_entry existsb hit_of fst snd Z.eqb Pos.eqb orb s_mat sheet]. cbn [combine filter].
        unfold dead, logical_or_out. cbn [hit_of fst snd Z.eqb Pos.eqb]. rewrite orb_true_r. cbn [negb]. discriminate. }
    destruct Q as (p & m & Q). exists p, m. split; [exact Q|]. eapply (trace_exhausted asort 9); [| |exact Q]; [unfold framed; cbn; lia|reflexivity]. }
  destruct D as (p & m & D & F). exists (with_tracer 0 (fun _ => p) (Session h m [PTracer 0 IDLE 0 false 0 1 1 10 [] [] [(0%Z, 0%nat); (2%Z, 2%nat)]] 1)).
  split; [unfold bench_session; rewrite run_app; unfold start; rewrite (run_world _ _ _ _ _ h) by apply B; exact R|].
  split.
  - cbn [run_stmt s_tracers nth_error s_heap s_clock s_store]. rewrite D. reflexivity.
  - exists (p_frame p). unfold with_tracer, results_object, frame_holds; cbn [s_tracers s_store list_upd nth_error option_map]. auto.
Qed.
(** the same components loaded from a generator: the mirror is seen, the absorber behind it no more *)
Definition then_loaded : list stmt := with_lists ++ [SIter [0; 2]%nat; SLoad 0%nat (Many 2%nat)].
Lemma up_to_mirror : forall asort, exists c', step_ray asort (map bench_shape [0; 2]%nat) (map bench_entry [0; 2]%nat) (with_id 0 (Col (axis 0 1) 0 1 1 1 0)) = SGo (out_row 1) c'.
Proof.
  intros asort. set (c0 := with_id 0 (Col (axis 0 1) 0 1 1 1 0)).
  assert (P0 : propagate asort (map bench_shape [0; 2]%nat) c0 = (Fin ((1 - 0) * 1), 0%Z)).
  { unfold propagate. cbn [map fold_left bench_shape]. unfold standing. change (c_ray c0) with (axis 0 1). rewrite (sheet_near asort 0%Z 1 Mirror); [|dirs|lra|reflexivity].
    apply sheet_far; [dirs|]. left; lra. }
  exists (with_ray (axis (0 + (1 - 0) * 1 * 1) (- 1)) c0).
  apply (axis_step asort _ _ c0 0 1 ((1 - 0) * 1) 0%Z (with_ray (axis (0 + (1 - 0) * 1 * 1) (- 1)) c0) 1); auto; try discriminate; try dirs.
  - unfold cell_pass. cbn [map bench_entry bench_shape standing fold_left hit_of fst snd Z.eqb Z.of_nat Pos.of_succ_nat Pos.succ Pos.eqb]. unfold apply_surface. cbn [fst snd].
    rewrite (mirror_axis 0 1 _ c0 0 1 eq_refl). reflexivity.
  - cbn [c_ray with_ray origin axis]. f_equal; ring.
Qed.
Lemma loaded_case : forall asort, exists s s' f, run_stmts asort (lamp 1) 9 (bench_session then_loaded) start = Some s /\
  run_stmt asort (lamp 1) 9 (STrace 0) s = SOk s' /\ shows s' 0 f /\ f_rows f = [out_row 1].
Proof.
  intros asort. destruct (bench asort) as (h & B). destruct (lists_made asort (lamp 1) 9 h B) as (s & t & R & Eh & Ec & El & (p & f & P & Hs & Hc & Hf & ->) & Nt).
  set (sa := Session (s_heap s) (Store (st_iters (s_store s) ++ [Iterator [0; 2]%nat]) (st_frames (s_store s))) (s_tracers s) (s_clock s)).
  assert (L2 : length (st_iters (s_store s)) = 2%nat).
  { destruct B as (_ & S0 & S1 & S2 & S3 & L0 & L1 & L2 & L3). revert R. cbn [with_lists run_stmts run_stmt s_store st_iters st_frames s_heap s_tracers s_clock app]. unfold s_tracer.
    cbn [new_frame resolve s_store st_iters st_frames s_heap s_tracers s_clock app length]. unfold iterate; cbn [st_iters nth_error]. cbn [map collect]. rewrite L0, L2. cbn [collect].
    intro R. injection R as <-. reflexivity. }
  assert (Rs : run_stmts asort (lamp 1) 9 (bench_session (with_lists ++ [SIter [0; 2]%nat])) start = Some sa).
  { unfold bench_session. rewrite run_app. unfold start. rewrite (run_world _ _ _ _ _ h) by apply B. rewrite run_app, R. reflexivity. }
  destruct (run_stmt asort (lamp 1) 9 (SLoad 0%nat (Many 2%nat)) sa) as [s1| |] eqn:E1; cbn [run_stmt sa s_tracers] in E1; rewrite P in E1; try discriminate.
  destruct (up_to_mirror asort) as (c' & X).
  assert (F : Forall (fun l => (l < 4)%nat) [0; 2]%nat) by (repeat constructor).
  assert (NT : p_lut p = map (fun l => (Z.of_nat l, l)) [0; 2]%nat /\ p_n p = 1%nat).
  { revert Nt. unfold new_tracer. destruct B as (_ & S0 & S1 & S2 & S3 & L0 & L1 & L2' & L3). cbn [map collect]. rewrite L0, L2'. intro Q. injection Q as Q1 Q2 Q3 Q4 Q5 Q6 Q7 Q8 Q9. split; [rewrite <- Q9; reflexivity|congruence]. }
  destruct NT as (NL & NN).
  destruct (one_step asort h (emit 1 1) [0; 2]%nat [0; 2]%nat (Col (axis 0 1) 0 1 1 1 0) (out_row 1) c' 4
    (Tracer empty_frame (p_state p) (p_gen p) (p_complete p) [9%nat] [0; 2]%nat (p_n p) 1 (p_rays p) (p_hits p) (p_lut p)) B F F eq_refl NL eq_refl) as (t1 & T1 & W1);
    [discriminate|cbn [source_rays t_sources t_n]; unfold source_rays; cbn [t_sources t_n]; rewrite NN; reflexivity|exact X|].
  destruct (loaded_iterator asort (lamp 1) 3 _ sa 0%nat 2%nat [9%nat] [0; 2]%nat p s1 t1 Rs) as (s2 & H2 & Sh).
  - exact P.
  - unfold holds_list, sa; cbn [s_store st_iters]. apply app_old. exact Hs.
  - unfold sa; cbn [s_store st_iters]. rewrite <- L2. apply app_new.
  - cbn [run_stmt sa s_tracers]. rewrite P. exact E1.
  - unfold sa; cbn [s_heap s_clock]. rewrite Eh, Ec. exact T1.
  - exists s1, s2, (get_results t1). split; [|auto]. unfold then_loaded, bench_session. rewrite app_assoc. 
    replace ((map SWorld bench_calls ++ with_lists) ++ [SIter [0; 2]%nat; SLoad 0%nat (Many 2%nat)]) with (bench_session (with_lists ++ [SIter [0; 2]%nat]) ++ [SLoad 0%nat (Many 2%nat)])
      by (unfold bench_session; rewrite <- !app_assoc; reflexivity).
    rewrite run_app, Rs. cbn [run_stmts run_stmt sa s_tracers]. rewrite P. rewrite E1. reflexivity.
Qed.

(** ** sources from a generator: one trace *)
Definition swap (j : nat) (p : ptracer) : ptracer :=
  PTracer (p_frame p) (p_state p) (p_gen p) (p_complete p) j (p_comps p) (p_n p) (p_limit p) (p_rays p) (p_hits p) (p_lut p).
Definition pmap (f : ptracer -> ptracer) (r : pres) : pres :=
  match r with POk p m => POk (f p) m | PRaise e p m => PRaise e (f p) m | x => x end.
Lemma swap_states : forall asort h gen j fuel p m, p_state p <> INITIALIZE -> p_states asort h gen fuel (swap j p) m = pmap (swap j) (p_states asort h gen fuel p m).
Proof.
  intros asort h gen j. induction fuel as [|n IH]; intros p m N.
  - cbn [p_states]. change (p_state (swap j p)) with (p_state p). destruct (p_state p); reflexivity.
  - cbn [p_states]. change (p_state (swap j p)) with (p_state p). destruct (p_state p) eqn:E; try congruence.
    + reflexivity.
    + unfold p_propagate. change (p_comps (swap j p)) with (p_comps p). destruct (iterate m (p_comps p)) as [cs m1].
      destruct (collect (map (shape_of h) cs)); [|reflexivity]. cbn [pbind]. rewrite <- IH by discriminate. reflexivity.
    + unfold p_interact. change (p_lut (swap j p)) with (p_lut p). destruct (collect (map (entry_of h) (p_lut p))) as [lut|]; [|reflexivity].
      change (interact lut (p_limit (swap j p)) (p_gen (swap j p)) (p_rays (swap j p)) (p_hits (swap j p))) with (interact lut (p_limit p) (p_gen p) (p_rays p) (p_hits p)).
      destruct (interact lut (p_limit p) (p_gen p) (p_rays p) (p_hits p)) as [|rows rays g fin| |]; try reflexivity; cbn [pbind].
      * rewrite <- IH by discriminate. reflexivity.
      * change (p_frame (swap j p)) with (p_frame p). destruct (new_frame _ m) as [f m1]. cbn [pbind]. rewrite <- IH by (destruct fin; discriminate). reflexivity.
    + unfold p_finish. cbn [pbind]. rewrite <- IH by discriminate. reflexivity.
Qed.
Definition with_lamps : list stmt := [SIter [9%nat]; SList [0; 2]%nat; SList [9%nat]; STracer (Many 0%nat) (Many 1%nat) 1 10].
Lemma lamps_case : forall asort, exists s p s1 f, run_stmts asort (lamp 1) 9 (bench_session with_lamps) start = Some s /\
  nth_error (s_tracers s) 0 = Some p /\ is_iterator s (p_sources p) /\
  run_stmt asort (lamp 1) 9 (STrace 0) s = SOk s1 /\ shows s1 0 f /\ f_rows f = [out_row 1; back_row 1].
Proof.
  intros asort. destruct (bench asort) as (h & B). pose proof B as (_ & S0 & S1 & S2 & S3 & L0 & L1 & L2 & L3).
  set (p := PTracer 0 IDLE 0 false 0 1 1 10 [] [] [(0%Z, 0%nat); (2%Z, 2%nat)]).
  assert (R : run_stmts asort (lamp 1) 9 with_lamps (Session h (Store [] []) [] 0) =
    Some (Session h (Store [Iterator [9%nat]; ListObj [0; 2]%nat; ListObj [9%nat]] [empty_frame]) [p] 0)).
  { cbn [with_lamps run_stmts run_stmt s_store st_iters st_frames s_heap s_tracers s_clock app]. unfold s_tracer.
    cbn [new_frame resolve s_store st_iters st_frames s_heap s_tracers s_clock app length]. unfold iterate; cbn [st_iters nth_error]. cbn [map collect]. rewrite L0, L2. reflexivity. }
  exists (Session h (Store [Iterator [9%nat]; ListObj [0; 2]%nat; ListObj [9%nat]] [empty_frame]) [p] 0), p.
  assert (NT : exists t, new_tracer h [9%nat] [0; 2]%nat 1 10 = Some t) by (unfold new_tracer; cbn [map collect]; rewrite L0, L2; eauto). destruct NT as (t & NT).
  destruct (there_and_back asort h B 1 10%Z 0%nat t ltac:(lia) ltac:(lia) NT) as (t' & Tr & Rows).
  set (m2 := Store [Iterator []; ListObj [0; 2]%nat; ListObj [9%nat]] [empty_frame; empty_frame]).
  set (q := PTracer 1 PROPAGATE 0 false 0 1 1 10 (renumber 0 (emit 1 1 9%nat 1)) [] [(0%Z, 0%nat); (2%Z, 2%nat)]).
  assert (T1 : p_trace asort h (emit 1 1) 9 p (Store [Iterator [9%nat]; ListObj [0; 2]%nat; ListObj [9%nat]] [empty_frame]) = p_states asort h (emit 1 1) 8 q m2).
  { unfold p_trace. rewrite p_init_step by reflexivity. reflexivity. }
  set (tq := Tracer empty_frame PROPAGATE 0 false [9%nat] [0; 2]%nat 1 10 (renumber 0 (emit 1 1 9%nat 1)) [] [(0%Z, 0%nat); (2%Z, 2%nat)]).
  assert (Lk : like m2 (swap 2 q) [9%nat] [0; 2]%nat tq).
  { split; [reflexivity|]. split; [reflexivity|]. split; [unfold framed; cbn; lia|reflexivity]. }
  pose proof (states_like asort h (emit 1 1) 8 _ _ _ _ _ Lk) as A. rewrite swap_states in A by discriminate.
  assert (T2 : trace asort h (emit 1 1) (9 + 0) t = run_states asort h (emit 1 1) 8 tq).
  { unfold new_tracer in NT. cbn [map collect] in NT. rewrite L0, L2 in NT. injection NT as <-. unfold trace. change (9 + 0)%nat with (S 8). rewrite TraceFacts5.run_S. reflexivity. }
  rewrite <- T2, Tr in A. rewrite <- T1 in A.
  destruct (p_trace asort h (emit 1 1) 9 p (Store [Iterator [9%nat]; ListObj [0; 2]%nat; ListObj [9%nat]] [empty_frame])) as [p1 m1|e p1 m1| |] eqn:E; cbn [pmap alike] in A; try contradiction.
  destruct A as ((_ & _ & Fr & Et) & _). eexists. exists (get_results t').
  split; [unfold bench_session; rewrite run_app; unfold start; rewrite (run_world _ _ _ _ _ h) by apply B; exact R|].
  split; [reflexivity|]. split; [exists [9%nat]; reflexivity|].
  split; [cbn [run_stmt s_tracers nth_error s_heap s_clock s_store]; change (lamp 1 0%nat h) with (emit 1 1); rewrite E; reflexivity|].
  split; [|exact Rows]. exists (p_frame p1). unfold with_tracer, results_object, frame_holds; cbn [s_tracers s_store list_upd nth_error option_map]. split; [reflexivity|].
  rewrite Et. cbn [get_results t_frame swap p_frame]. unfold frame_at. apply nth_error_nth'. exact Fr.
Qed.

(** ** the other methods *)
Lemma methods_like : forall asort gen fuel s k xs ys t, tracer_is s k xs ys t ->
  (exists s', run_stmt asort gen fuel (SIds k) s = SOk s' /\ tracer_is s' k xs ys (calculate_source_ids t)) /\
  (exists s', run_stmt asort gen fuel (SReset k) s = SOk s' /\ tracer_is s' k xs ys (reset t)) /\
  (forall n, exists s', run_stmt asort gen fuel (SRaysPerSource k n) s = SOk s' /\ tracer_is s' k xs ys (set_rays_per_source n t)) /\
  (forall l, exists s', run_stmt asort gen fuel (SLimit k l) s = SOk s' /\ tracer_is s' k xs ys (set_generation_limit l t)) /\
  (forall i zs, holds_list s i zs -> exists s', run_stmt asort gen fuel (SLoad k (Many i)) s = SOk s' /\ tracer_is s' k xs zs (load_components zs t)).
Proof.
  intros asort gen fuel s k xs ys t (p & f & P & Hs & Hc & Hf & ->). unfold holds_list, frame_holds in *. cbn [run_stmt]. rewrite P.
  split; [|split; [|split; [|split]]].
  - eexists. split; [reflexivity|]. exists p, (Frame (f_rows f) (Some (map (fun w => trunc (INR (row_id w) / INR (p_n p))) (f_rows f)))).
    unfold holds_list, frame_holds; cbn [s_tracers s_store st_iters st_frames]. split; [exact P|]. split; [exact Hs|]. split; [exact Hc|].
    split; [rewrite (upd_same _ _ _ _ _ Hf); reflexivity|reflexivity].
  - unfold p_reset, new_frame. eexists. split; [reflexivity|]. eexists. exists empty_frame. unfold with_tracer, holds_list, frame_holds; cbn [s_tracers s_store st_iters st_frames].
    split; [apply (upd_same _ _ _ _ _ P)|]. cbn [p_sources p_comps p_frame]. split; [exact Hs|]. split; [exact Hc|]. split; [apply app_new|reflexivity].
  - intro n. eexists. split; [reflexivity|]. eexists. exists f. unfold with_tracer, holds_list, frame_holds; cbn [s_tracers s_store st_iters st_frames].
    split; [apply (upd_same _ _ _ _ _ P)|]. cbn [p_sources p_comps p_frame]. split; [exact Hs|]. split; [exact Hc|]. split; [exact Hf|reflexivity].
  - intro l. eexists. split; [reflexivity|]. eexists. exists f. unfold with_tracer, holds_list, frame_holds; cbn [s_tracers s_store st_iters st_frames].
    split; [apply (upd_same _ _ _ _ _ P)|]. cbn [p_sources p_comps p_frame]. split; [exact Hs|]. split; [exact Hc|]. split; [exact Hf|reflexivity].
  - intros i zs Hz. cbn [resolve]. eexists. split; [reflexivity|]. eexists. exists f. unfold with_tracer, holds_list, frame_holds; cbn [s_tracers s_store st_iters st_frames].
    split; [apply (upd_same _ _ _ _ _ P)|]. cbn [p_sources p_comps p_frame]. split; [exact Hs|]. split; [exact Hz|]. split; [exact Hf|reflexivity].
Qed.
