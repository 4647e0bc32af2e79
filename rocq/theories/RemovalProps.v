(** * RemovalProps: components that no row names can be taken away *)
From Coq Require Import Reals List Bool ZArith Lra Lia Arith Sorted.
Import ListNotations.
From Verif Require Import XR XRFacts Arr Lin LinFacts Ops Prim Csg CsgProps Surf World Tracer SpecTrace TraceFacts TraceFacts2 TraceFacts3 TraceFacts4 TraceFacts5 TraceFacts8 TraceFacts9 TraceExamples TraceProps
  SpecMotion MotionFacts2.
Open Scope R_scope.

Section Drop.
  Variable asort : list xr -> list nat.
  Hypothesis AS : argsort_ok asort.
  Variables (A B : list shape) (X : shape).
  Lemma reports_before : forall r i k t sid, (i < length A)%nat ->
    reports asort (A ++ X :: B) r i k t sid <-> reports asort (A ++ B) r i k t sid.
  Proof. intros r i k t sid L. unfold reports. rewrite !nth_error_app1 by lia. tauto. Qed.
  Lemma reports_after : forall r i k t sid, (length A <= i)%nat ->
    reports asort (A ++ X :: B) r (S i) k t sid <-> reports asort (A ++ B) r i k t sid.
  Proof.
    intros r i k t sid L. unfold reports. rewrite !nth_error_app2 by lia. replace (S i - length A)%nat with (S (i - length A)) by lia. cbn [nth_error]. tauto.
  Qed.
  Lemma reports_back : forall r i k t sid, reports asort (A ++ B) r i k t sid ->
    exists i', reports asort (A ++ X :: B) r i' k t sid /\ (i' = if Nat.ltb i (length A) then i else S i).
  Proof.
    intros r i k t sid H. destruct (Nat.ltb_spec i (length A)).
    - exists i. split; [apply reports_before; auto|reflexivity].
    - exists (S i). split; [apply reports_after; auto|reflexivity].
  Qed.
  Lemma no_hit_drop : forall r, no_hit asort (A ++ X :: B) r -> no_hit asort (A ++ B) r.
  Proof. intros r H i k t sid K. destruct (reports_back _ _ _ _ _ K) as (i' & K' & _). exact (H _ _ _ _ K'). Qed.
  Lemma first_hit_drop : forall r t sid, first_hit asort (A ++ X :: B) r t sid -> ~ In sid (map s_id (surface_ids X)) ->
    first_hit asort (A ++ B) r t sid.
  Proof.
    intros r t sid (i & k & H & M) NI.
    assert (NE : i <> length A).
    { intros ->. apply NI. destruct (first_hit_surface asort AS [X] r t sid) as (s & f & [<-|[]] & If & E & _).
      - exists 0%nat, k. split.
        + destruct H as (s & N & K). rewrite nth_error_app2, Nat.sub_diag in N by lia. exists s. split; auto.
        + intros i' k' t' sid' (s & N & K). destruct i' as [|i']; [|destruct i'; discriminate].
          assert (R' : reports asort (A ++ X :: B) r (length A) k' t' sid').
          { exists s. rewrite nth_error_app2, Nat.sub_diag by lia. split; auto. }
          destruct (M _ _ _ _ R') as [L|[L [C|[_ C]]]]; [auto|lia|auto].
      - rewrite <- E. apply in_map. exact If. }
    exists (if Nat.ltb i (length A) then i else (i - 1)%nat), k. destruct (Nat.ltb_spec i (length A)) as [L|L].
    - split; [apply reports_before; auto|]. intros i' k' t' sid' R'. destruct (reports_back _ _ _ _ _ R') as (j & Rj & Ej).
      specialize (M _ _ _ _ Rj). destruct (Nat.ltb_spec i' (length A)); lia || (destruct M as [M|[M C]]; [auto|right; split; [auto|lia]]).
    - destruct i as [|i]; [lia|]. replace (S i - 1)%nat with i by lia. split; [apply reports_after; auto; lia|].
      intros i' k' t' sid' R'. destruct (reports_back _ _ _ _ _ R') as (j & Rj & Ej).
      specialize (M _ _ _ _ Rj). destruct (Nat.ltb_spec i' (length A)); (destruct M as [M|[M C]]; [auto|right; split; [auto|lia]]).
  Qed.
  Lemma history_drop : forall limit g c rows, history asort (A ++ X :: B) (flat_map surface_ids (A ++ X :: B)) limit g c rows ->
    (forall w, In w rows -> ~ In (row_surf w) (map s_id (surface_ids X))) ->
    history asort (A ++ B) (flat_map surface_ids (A ++ B)) limit g c rows.
  Proof.
    intros limit g c rows H. induction H as [g c G L|g c S|g c t sid s c' rows G NS F I E M HI IH]; intro NW.
    - apply History_limit; auto.
    - apply History_stopped. destruct S as [S|S]; [left; exact S|right; apply no_hit_drop; exact S].
    - assert (NI : ~ In sid (map s_id (surface_ids X))) by exact (NW _ (or_introl eq_refl)).
      apply (History_hit asort _ _ limit g c t sid s c'); auto.
      + apply first_hit_drop; auto.
      + rewrite flat_map_app in *. cbn [flat_map] in I. rewrite !in_app_iff in *. destruct I as [I|[I|I]]; auto.
        exfalso. apply NI. rewrite <- E. apply in_map. exact I.
      + apply IH. intros w W. apply NW. right. exact W.
  Qed.
End Drop.

(** the list without some elements, each of which satisfies [P] *)
Inductive thinned {T : Type} (P : T -> Prop) : list T -> list T -> Prop :=
| Thin_nil : thinned P [] []
| Thin_keep : forall x l l', thinned P l l' -> thinned P (x :: l) (x :: l')
| Thin_drop : forall x l l', P x -> thinned P l l' -> thinned P (x :: l) l'.
Lemma history_thin : forall asort, argsort_ok asort -> forall limit g c rows comps comps',
  thinned (fun X => forall w, In w rows -> ~ In (row_surf w) (map s_id (surface_ids X))) comps comps' -> forall A,
  history asort (A ++ comps) (flat_map surface_ids (A ++ comps)) limit g c rows ->
  history asort (A ++ comps') (flat_map surface_ids (A ++ comps')) limit g c rows.
Proof.
  intros asort AS limit g c rows comps comps' TH. induction TH as [|x l l' TH IH|x l l' P TH IH]; intros A H; auto.
  - replace (A ++ x :: l') with ((A ++ [x]) ++ l') by (rewrite <- app_assoc; reflexivity). apply IH. rewrite <- app_assoc. exact H.
  - apply IH. eapply history_drop; eauto.
Qed.
Lemma thin_in : forall (T : Type) (P : T -> Prop) l l' x, thinned P l l' -> In x l' -> In x l.
Proof. intros T P l l' x TH. induction TH; cbn [In]; tauto. Qed.
Lemma nodup_right : forall (T : Type) (a b : list T), NoDup (a ++ b) -> NoDup b.
Proof. induction a as [|x a IH]; intros b N; [exact N|]. inversion N; auto. Qed.
Lemma thin_nodup : forall (T : Type) (P : T -> Prop) (f : T -> list surf) l l', thinned P l l' -> NoDup (map s_id (flat_map f l)) -> NoDup (map s_id (flat_map f l')).
Proof.
  intros T P f l l' TH. induction TH as [|x l l' TH IH|x l l' H TH IH]; cbn [flat_map]; intro N; auto.
  - rewrite map_app in *. pose proof (nodup_right _ _ _ N) as N2. specialize (IH N2). clear N2.
    assert (K : forall z, In z (map s_id (flat_map f l')) -> In z (map s_id (flat_map f l))).
    { intros z Z. apply in_map_iff in Z. destruct Z as (q & <- & Q). apply in_map. apply in_flat_map in Q. destruct Q as (y & Y1 & Y2).
      apply in_flat_map. exists y. split; [eapply thin_in; eauto|exact Y2]. }
    revert N. induction (map s_id (f x)) as [|a u IHu]; cbn [app]; intro N; auto. inversion N as [|? ? N1 N2]; subst. constructor; auto.
    rewrite in_app_iff in *. intros [J|J]; apply N1; auto.
  - apply IH. rewrite map_app in N. apply nodup_right in N. exact N.
Qed.

Theorem unseen_components : forall asort, argsort_ok asort -> forall (keep : loc -> bool) gen h ss ls n limit t u comps fuel t' fuel',
  new_tracer h ss ls n limit = Some t -> new_tracer h ss (filter keep ls) n limit = Some u -> proper gen h t comps ->
  trace asort h gen fuel t = TOk t' -> (2 * Z.to_nat limit + 2 <= fuel')%nat ->
  (forall w l s, In w (f_rows (get_results t')) -> In l ls -> keep l = false -> shape_of h l = Some s ->
     ~ In (row_surf w) (map s_id (surface_ids s))) ->
  exists u', trace asort h gen fuel' u = TOk u' /\ f_rows (get_results u') = f_rows (get_results t').
Proof.
  intros asort AS keep gen h ss ls n limit t u comps fuel t' fuel' NT NU P T FU UNSEEN.
  destruct (new_tracer_table _ _ _ _ _ _ NT) as (TC & EC & ES & EN & EL). destruct (new_tracer_table _ _ _ _ _ _ NU) as (TC' & EC' & ES' & EN' & EL').
  pose proof P as (SC & LIM & SRC & RAYS & PARTS). pose proof SC as (SH & _ & ND). rewrite EC in SH.
  assert (SR : source_rays gen u = source_rays gen t) by (unfold source_rays; rewrite ES, ES', EN, EN'; reflexivity).
  set (rows := f_rows (get_results t')) in *.
  assert (K : exists comps', map (shape_of h) (filter keep ls) = map Some comps' /\
     thinned (fun X => forall w, In w rows -> ~ In (row_surf w) (map s_id (surface_ids X))) comps comps').
  { clear - SH UNSEEN. revert comps SH. induction ls as [|l ls IH]; intros [|s comps] SH; cbn [map] in SH; try discriminate.
    - exists []. split; [reflexivity|constructor].
    - injection SH as S1 S2. destruct (IH (fun w l s W L => UNSEEN w l s W (or_intror L)) comps S2) as (comps' & E & TH).
      cbn [filter]. destruct (keep l) eqn:KL.
      + exists (s :: comps'). cbn [map]. rewrite S1, E. split; [reflexivity|constructor; exact TH].
      + exists comps'. split; [exact E|]. constructor; [|exact TH]. intros w W. apply (UNSEEN w l s W (or_introl eq_refl) KL S1). }
  destruct K as (comps' & SH' & TH).
  assert (PU : proper gen h u comps').
  { split; [split; [rewrite EC'; exact SH'|split; [exact TC'|eapply thin_nodup; eauto]]|].
    rewrite EL', ES', SR, <- ES. rewrite EL in LIM. split; [exact LIM|]. split; [exact SRC|]. split; [exact RAYS|].
    intros s I. apply PARTS. apply in_flat_map in I. destruct I as (x & X1 & X2). apply in_flat_map. exists x. split; [eapply thin_in; eauto|exact X2]. }
  destruct (proper_trace_ok asort AS _ _ _ _ fuel' PU) as (u' & U); [rewrite EL'; exact FU|]. exists u'. split; [exact U|].
  rewrite <- (map_id rows). unfold rows. apply (frames_alike asort AS h gen fuel t t' h gen fuel' u u' (fun w => w) T U).
  - intros c I. apply RAYS; auto.
  - intros c I. rewrite SR in I. apply RAYS; auto.
  - rewrite SR. reflexivity.
  - auto.
  - intros i L. destruct (nth_error (source_rays gen t) i) as [c|] eqn:N; [|apply nth_error_None in N; lia]. rewrite map_id.
    pose proof (scene_histories asort AS _ _ _ _ _ _ T SC i c N) as H. rewrite <- SR in N.
    pose proof (scene_histories asort AS _ _ _ _ _ _ U (proj1 PU) i c N) as H'. rewrite EL' in H'. rewrite EL in H.
    apply (history_thin asort AS limit 0 (with_id i c) _ comps comps') with (A := []) in H.
    + cbn [app] in H. exact (history_unique _ _ _ _ _ _ _ (proj2 (proj2 (proj1 PU))) H _ H').
    + clear - TH. induction TH as [|x l l' TH IH|x l l' P TH IH]; constructor; auto. intros w W. apply in_rows_with_id in W. apply P. apply W.
Qed.

(** ** a smaller generation limit *)
Lemma history_cut : forall asort comps surfaces limit limit' g c rows, history asort comps surfaces limit g c rows ->
  c_gen c = g -> (1 <= limit' <= limit)%Z -> (Z.of_nat g < limit')%Z ->
  history asort comps surfaces limit' g c (filter (fun w => Z.ltb (Z.of_nat (row_gen w)) limit') rows).
Proof.
  intros asort comps surfaces limit limit' g c rows H EG L. induction H as [g c G E|g c S|g c t sid s c' rows G NS F I E M HI IH]; intro LT; cbn [filter].
  - lia.
  - apply History_stopped; auto.
  - cbn [row_gen]. replace (Z.ltb (Z.of_nat (c_gen c)) limit') with true by (symmetry; apply Z.ltb_lt; lia).
    apply (History_hit asort comps surfaces limit' g c t sid s c'); auto; [right; lia|].
    destruct (Z.eq_dec (Z.of_nat (S g)) limit') as [K|K].
    + replace (filter _ rows) with (@nil row); [apply History_limit; [lia|exact K]|]. symmetry.
      assert (GE : forall w, In w rows -> (S g <= row_gen w)%nat).
      { clear - HI. remember (S g) as g' eqn:EG'. assert (Q : c_gen (forward ray_offset_value (with_gen g' c')) = g') by reflexivity.
        clear EG'. revert HI Q. generalize (forward ray_offset_value (with_gen g' c')). intros c0 HI Q.
        assert (X : forall w, In w rows -> (g' <= row_gen w)%nat); [|exact X].
        induction HI as [g0 c0 ? ?|g0 c0 ?|g0 c0 t sid s c1 rows G NS F I E M HI IH]; intros w W; try destruct W.
        - subst w. cbn [row_gen]. lia.
        - specialize (IH eq_refl w H). lia. }
      clear - GE K. induction rows as [|w rows IHr]; cbn [filter]; [reflexivity|]. pose proof (GE w (or_introl eq_refl)).
      destruct (Z.ltb_spec (Z.of_nat (row_gen w)) limit'); [lia|]. apply IHr. intros; apply GE; right; auto.
    + apply IH; [reflexivity|lia].
Qed.
Theorem limit_cuts : forall asort, argsort_ok asort -> forall gen h ss ls n limit limit' t u comps fuel t' fuel',
  new_tracer h ss ls n limit = Some t -> new_tracer h ss ls n limit' = Some u -> proper gen h t comps ->
  trace asort h gen fuel t = TOk t' -> (1 <= limit' <= limit)%Z -> (2 * Z.to_nat limit' + 2 <= fuel')%nat ->
  exists u', trace asort h gen fuel' u = TOk u' /\
    f_rows (get_results u') = filter (fun w => Z.ltb (Z.of_nat (row_gen w)) limit') (f_rows (get_results t')).
Proof.
  intros asort AS gen h ss ls n limit limit' t u comps fuel t' fuel' NT NU P T L FU.
  destruct (new_tracer_table _ _ _ _ _ _ NT) as (TC & EC & ES & EN & EL). destruct (new_tracer_table _ _ _ _ _ _ NU) as (TC' & EC' & ES' & EN' & EL').
  pose proof P as (SC & LIM & SRC & RAYS & PARTS). pose proof SC as (SH & _ & ND). rewrite EC in SH.
  assert (SR : source_rays gen u = source_rays gen t) by (unfold source_rays; rewrite ES, ES', EN, EN'; reflexivity).
  assert (PU : proper gen h u comps).
  { split; [split; [rewrite EC'; exact SH|split; [exact TC'|exact ND]]|]. rewrite EL', ES', SR, <- ES. split; [lia|]. split; [exact SRC|]. split; [exact RAYS|exact PARTS]. }
  destruct (proper_trace_ok asort AS _ _ _ _ fuel' PU) as (u' & U); [rewrite EL'; exact FU|]. exists u'. split; [exact U|].
  set (cut := filter (fun w => Z.ltb (Z.of_nat (row_gen w)) limit')).
  assert (FM : forall i l, rows_with_id i (cut l) = cut (rows_with_id i l)).
  { intros i l. unfold rows_with_id, cut. induction l as [|w l IH]; cbn [filter]; auto.
    destruct (Z.ltb (Z.of_nat (row_gen w)) limit') eqn:E1, (Nat.eqb (row_id w) i) eqn:E2; cbn [filter]; rewrite ?E1, ?E2, IH; reflexivity. }
  assert (EQ : forall i, rows_with_id i (f_rows (get_results u')) = rows_with_id i (cut (f_rows (get_results t')))).
  { intro i. rewrite FM. destruct (nth_error (source_rays gen t) i) as [c|] eqn:N.
    - pose proof (scene_histories asort AS _ _ _ _ _ _ T SC i c N) as H. pose proof N as N'. rewrite <- SR in N'.
      pose proof (scene_histories asort AS _ _ _ _ _ _ U (proj1 PU) i c N') as H'. rewrite EL' in H'. rewrite EL in H.
      apply (history_cut _ _ _ limit limit') in H; [|exact (proj2 (RAYS c (nth_error_In _ _ N)))|exact L|lia].
      exact (history_unique _ _ _ _ _ _ _ ND H _ H').
    - rewrite !rows_with_id_none; auto.
      + intros w W E. destruct (fields_carried _ _ _ _ _ _ T w W) as (c & K & _). congruence.
      + intros w W E. destruct (fields_carried _ _ _ _ _ _ U w W) as (c & K & _). rewrite SR in K. congruence. }
  apply sorted_same.
  - eapply frame_in_order; eauto. intros c I. rewrite SR in I. apply RAYS; auto.
  - assert (SS : StronglySorted earlier (f_rows (get_results t'))) by (eapply frame_in_order; eauto; intros c I; apply RAYS; auto).
    clear - SS. unfold cut. induction SS as [|w l S IH F]; cbn [filter]; [constructor|]. destruct (Z.ltb _ _); [|exact IH]. constructor; auto.
    rewrite Forall_forall in *. intros w' I. apply filter_In in I. apply F. apply I.
  - intro w. split; intro W; apply (in_rows_with_id (row_id w)); [rewrite <- EQ|rewrite EQ]; apply in_rows_with_id; auto.
Qed.

(** ** cases *)
Lemma glass_only : forall asort, argsort_ok asort -> exists h t u t', bench_run asort [1; 2]%nat 1 h t /\ bench_run asort [1]%nat 1 h u /\
  proper (emit (-1) 1) h t (map bench_shape [1; 2]%nat) /\ trace asort h (emit (-1) 1) 5 t = TOk t' /\ f_rows (get_results t') = [glass_row] /\
  forall s, shape_of h 2%nat = Some s -> ~ In (row_surf glass_row) (map s_id (surface_ids s)).
Proof.
  intros asort AS. destruct (a_bench asort) as (h & B). destruct (a_run asort h [1; 2]%nat 1 B ltac:(bench_list)) as (t & R).
  destruct (a_run asort h [1]%nat 1 B ltac:(bench_list)) as (u & R'). pose proof R as (_ & NT).
  exists h, t, u. assert (L : Forall (fun l => (l < 4)%nat) [1; 2]%nat) by repeat constructor.
  destruct (glass_steps asort) as (c1 & c2 & X & _).
  pose proof (bench_tracer asort h [9%nat] [1; 2]%nat 1 1 B L) as E. rewrite NT in E. injection E as ->.
  match goal with |- exists t', _ /\ _ /\ _ /\ trace _ _ _ _ ?t = _ /\ _ => destruct (one_step asort h (emit (-1) 1) [1; 2]%nat [1; 2]%nat (Col (axis 0 (-1)) 0 1 1 1 0) _ _ 0%nat
    t B L L eq_refl eq_refl eq_refl ltac:(discriminate) eq_refl X) as (t' & T & F) end.
  exists t'. split; [exact R|]. split; [exact R'|]. split.
  - apply (bench_proper asort h (-1) 1 [1; 2]%nat [9%nat] 1 1); auto; try lia; [repeat constructor; cbn; lia|discriminate].
  - split; [exact T|]. split; [exact F|]. intros s S. destruct (bench_at asort h 2%nat B ltac:(lia)) as (S2 & _). rewrite S in S2. injection S2 as ->.
    cbn. intros [E|[]]. discriminate.
Qed.
Lemma glass_matters : forall asort, argsort_ok asort -> exists h t u t' u',
  new_tracer h [9%nat] [1; 2]%nat 1 1 = Some t /\ new_tracer h [9%nat] (filter (Nat.eqb 2) [1; 2]%nat) 1 1 = Some u /\
  trace asort h (emit (-1) 1) 5 t = TOk t' /\ trace asort h (emit (-1) 1) 5 u = TOk u' /\
  f_rows (get_results t') = [glass_row] /\ f_rows (get_results u') = [fresh_row].
Proof.
  intros asort AS. destruct (a_bench asort) as (h & B). destruct (a_run asort h [1; 2]%nat 1 B ltac:(bench_list)) as (t & R).
  destruct (a_run asort h [2]%nat 1 B ltac:(bench_list)) as (u & R'). pose proof R as (_ & NT). pose proof R' as (_ & NU).
  exists h, t, u. assert (L : Forall (fun l => (l < 4)%nat) [1; 2]%nat) by repeat constructor.
  assert (L' : Forall (fun l => (l < 4)%nat) [2]%nat) by repeat constructor.
  destruct (glass_steps asort) as (c1 & c2 & X & _). destruct (down_to_absorber asort []) as (_ & Y & _).
  pose proof (bench_tracer asort h [9%nat] [1; 2]%nat 1 1 B L) as E. rewrite NT in E. injection E as E.
  pose proof (bench_tracer asort h [9%nat] [2]%nat 1 1 B L') as E'. rewrite NU in E'. injection E' as E'.
  destruct (one_step asort h (emit (-1) 1) [1; 2]%nat [1; 2]%nat (Col (axis 0 (-1)) 0 1 1 1 0) _ _ 0%nat t B L L
    ltac:(subst t; reflexivity) ltac:(subst t; reflexivity) ltac:(subst t; reflexivity) ltac:(subst t; discriminate) ltac:(subst t; reflexivity) X) as (t' & T & F).
  destruct (one_step asort h (emit (-1) 1) [2]%nat [2]%nat (Col (axis 0 (-1)) 0 1 1 1 0) _ _ 0%nat u B L' L'
    ltac:(subst u; reflexivity) ltac:(subst u; reflexivity) ltac:(subst u; reflexivity) ltac:(subst u; discriminate) ltac:(subst u; reflexivity) Y) as (u' & U & F').
  exists t', u'. repeat split; assumption.
Qed.
