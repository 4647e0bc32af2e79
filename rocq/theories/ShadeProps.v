(** * ShadeProps: absorbing components only cut histories short *)
From Coq Require Import Reals List Bool ZArith Lra Lia Arith.
Import ListNotations.
From Verif Require Import XR XRFacts Arr Lin LinFacts Ops Prim Csg CsgProps Surf World Tracer SpecTrace TraceFacts TraceFacts2 TraceFacts3 TraceFacts4 TraceFacts5 TraceFacts8 TraceFacts9
  MotionFacts2 TraceExamples TraceProps RemovalProps SpecShade.
Open Scope R_scope.

Lemma one_of_id : forall (l : list surf) a b, NoDup (map s_id l) -> In a l -> In b l -> s_id a = s_id b -> a = b.
Proof.
  induction l as [|x l IH]; intros a b ND A B E; [destruct A|]. inversion ND as [|? ? N1 N2]; subst.
  destruct A as [<- | A], B as [<- | B]; auto.
  - exfalso. apply N1. rewrite E. apply in_map; auto.
  - exfalso. apply N1. rewrite <- E. apply in_map; auto.
Qed.
Lemma thin_or : forall (P : shape -> Prop) sid l l', thinned P l l' ->
  thinned (fun X => ~ In sid (map s_id (surface_ids X))) l l' \/ exists X, P X /\ In X l /\ In sid (map s_id (surface_ids X)).
Proof.
  intros P sid l l' TH. induction TH as [|x l l' TH IH|x l l' H TH IH]; [left; constructor| |].
  - destruct IH as [IH|(X & A & B & C)]; [left; constructor; exact IH|right; exists X; cbn [In]; auto].
  - destruct (in_dec Z.eq_dec sid (map s_id (surface_ids x))) as [I|I]; [right; exists x; cbn [In]; auto|].
    destruct IH as [IH|(X & A & B & C)]; [left; constructor; auto|right; exists X; cbn [In]; auto].
Qed.
Lemma reports_thin : forall asort P comps comps', thinned P comps comps' -> forall r i k t sid, reports asort comps' r i k t sid -> exists i', reports asort comps r i' k t sid.
Proof.
  intros asort P comps comps' TH. induction TH as [|x l l' TH IH|x l l' H TH IH]; intros r i k t sid R; [eauto| |].
  - destruct i as [|i]; [exists 0%nat; exact R|]. destruct (IH r i k t sid R) as (i' & R'). exists (S i'). exact R'.
  - destruct (IH r i k t sid R) as (i' & R'). exists (S i'). exact R'.
Qed.
Lemma first_hit_thin : forall asort, argsort_ok asort -> forall r t sid comps comps', thinned (fun X => ~ In sid (map s_id (surface_ids X))) comps comps' ->
  forall A, first_hit asort (A ++ comps) r t sid -> first_hit asort (A ++ comps') r t sid.
Proof.
  intros asort AS r t sid comps comps' TH. induction TH as [|x l l' TH IH|x l l' P TH IH]; intros A H; auto.
  - replace (A ++ x :: l') with ((A ++ [x]) ++ l') by (rewrite <- app_assoc; reflexivity). apply IH. rewrite <- app_assoc. exact H.
  - apply IH. eapply first_hit_drop; eauto.
Qed.
Lemma acted_origin : forall s c c', material_trace s c = Some c' -> origin (c_ray c') = origin (c_ray c).
Proof.
  intros s c c' M. unfold material_trace in M. destruct (s_mat s) as [| |ix|]; [injection M as <-; reflexivity| | |discriminate].
  - destruct (world_normal s (origin (c_ray c))); [injection M as <-; reflexivity|discriminate].
  - destruct (world_normal s (origin (c_ray c))); [|discriminate]. destruct (ix (c_wl c)); try discriminate; destruct (refract _ _ _ _ _) as [[]|]; try discriminate; injection M as <-; reflexivity.
Qed.
Definition opaque (X : shape) : Prop := forall f, In f (surface_ids X) -> s_mat f = Absorber \/ s_mat f = Untraceable.
Lemma history_shade : forall asort, argsort_ok asort -> forall (P : shape -> Prop) comps comps', (forall X, P X -> opaque X) -> thinned P comps comps' ->
  NoDup (map s_id (flat_map surface_ids comps)) ->
  forall limit g c W, history asort comps (flat_map surface_ids comps) limit g c W -> forall V, history asort comps' (flat_map surface_ids comps') limit g c V ->
  cut_short (fun sid => exists X, P X /\ In X comps /\ In sid (map s_id (surface_ids X))) W V.
Proof.
  intros asort AS P comps comps' OP TH ND limit g c W H. pose proof (thin_nodup _ _ surface_ids _ _ TH ND) as ND'.
  induction H as [g c G L|g c S|g c t sid s c' rows G NS F I E M HI IH]; intros V H'.
  - left. inversion H'; subst; auto. exfalso. intuition lia.
  - left. inversion H'; subst; auto. exfalso. destruct S as [S|S]; [contradiction|].
    match goal with K : first_hit _ _ _ _ _ |- _ => destruct K as (i & k & R & _) end. destruct (reports_thin asort P _ _ TH _ _ _ _ _ R) as (i' & R'). eapply S; eauto.
  - destruct (thin_or P sid comps comps' TH) as [K|(X & PX & IX & SX)].
    + assert (F' : first_hit asort comps' (c_ray c) t sid) by exact (first_hit_thin asort AS (c_ray c) t sid comps comps' K [] F).
      assert (I' : In s (flat_map surface_ids comps')).
      { apply in_flat_map in I. destruct I as (Y & Y1 & Y2). clear - K Y1 Y2 E. induction K as [|x l l' K IH|x l l' N K IH]; [destruct Y1| |]; cbn [flat_map]; cbn [In] in Y1.
        - apply in_or_app. destruct Y1 as [->|Y1]; auto.
        - destruct Y1 as [->|Y1]; [|auto]. exfalso. apply N. rewrite <- E. apply in_map. exact Y2. }
      inversion H' as [g0 c0 G0 L0|g0 c0 S0|g0 c0 t0 sid0 s0 c0' rows0 G0 NS0 F0 I0 E0 M0 HI0]; subst.
      * exfalso. intuition lia.
      * exfalso. destruct S0 as [S0|S0]; [contradiction|]. destruct F' as (i & k & R & _). eapply S0; eauto.
      * destruct (first_hit_unique _ _ _ _ _ _ _ F' F0) as (<- & EE).
        assert (s0 = s) by (apply (one_of_id (flat_map surface_ids comps')); auto). subst s0. assert (c0' = c') by congruence. subst c0'.
        destruct (IH _ HI0) as [->|(pre & w & -> & BL & Q)]; [left; reflexivity|right].
        eexists (_ :: pre), w. split; [reflexivity|]. split; [exact BL|]. destruct Q as [->|(v & later & -> & BG)]; [left; reflexivity|right; exists v, later; split; [reflexivity|exact BG]].
    + right. assert (SO : s_mat s = Absorber).
      { apply in_map_iff in SX. destruct SX as (f & EF & IF). assert (f = s).
        { apply (one_of_id (flat_map surface_ids comps)); [exact ND| |exact I|congruence]. apply in_flat_map. eauto. }
        subst f. destruct (OP X PX s IF) as [A|A]; [exact A|]. unfold material_trace in M. rewrite A in M. discriminate. }
      assert (rows = []).
      { inversion HI as [| |? ? ? ? ? ? ? ? NS0]; subst; auto. exfalso. apply NS0. unfold stopped. unfold material_trace in M. rewrite SO in M. injection M as <-.
        unfold forward. cbn [c_ray with_ray with_gen with_direction direction origin]. unfold zero4, vnorm, vdot. cbn [vx vy vz vw]. replace (0 * 0 + 0 * 0 + 0 * 0 + 0 * 0) with 0 by ring. rewrite sqrt_0. unfold atol. lra. }
      subst rows. exists []. eexists. split; [reflexivity|]. split; [cbn [row_surf]; eauto|].
      inversion H' as [g0 c0 G0 L0|g0 c0 S0|g0 c0 t0 sid0 s0 c0' rows0 G0 NS0 F0 I0 E0 M0 HI0]; subst; [left; reflexivity|left; reflexivity|right].
      eexists. exists rows0. split; [reflexivity|]. pose proof F as (i & k & R & MIN). pose proof F0 as (i0 & k0 & R0 & _).
      destruct (reports_thin asort P _ _ TH _ _ _ _ _ R0) as (i1 & R1). specialize (MIN _ _ _ _ R1). assert (TL : t <= t0) by (destruct MIN as [MIN|[MIN _]]; lra).
      assert (TP : 0 < t) by (destruct R as (? & _ & _ & _ & TP); exact TP).
      unfold begins. cbn [row_gen row_int row_wl row_idx row_id row_start row_tilt row_end]. repeat (split; [reflexivity|]). exists (t / t0). split.
      { split; [apply Rdiv_lt_0_compat; lra|]. apply (Rmult_le_reg_r t0); [lra|]. unfold Rdiv. rewrite Rmult_assoc, Rinv_l by lra. lra. }
      rewrite (acted_origin _ _ _ M), (acted_origin _ _ _ M0). unfold forward, with_ray, trim, vset_w. cbn [c_ray origin].
      unfold vsub, vopp, vadd, vscale. cbn [vx vy vz vw]. f_equal; try field; lra.
Qed.
Lemma cut_weaken : forall (A B : Z -> Prop) W V, (forall z, A z -> B z) -> cut_short A W V -> cut_short B W V.
Proof. intros A B W V I [->|(rows & w & E & K & Q)]; [left; reflexivity|right; exists rows, w; auto]. Qed.
Theorem opaque_components : forall asort, argsort_ok asort -> forall (keep : loc -> bool) gen h ss ls n limit t u comps fuel t' fuel' u',
  new_tracer h ss ls n limit = Some t -> new_tracer h ss (filter keep ls) n limit = Some u -> scene h t comps ->
  (forall l X f, In l ls -> keep l = false -> shape_of h l = Some X -> In f (surface_ids X) -> s_mat f = Absorber \/ s_mat f = Untraceable) ->
  trace asort h gen fuel t = TOk t' -> trace asort h gen fuel' u = TOk u' ->
  forall i, cut_short (screens h keep ls) (rows_with_id i (f_rows (get_results t'))) (rows_with_id i (f_rows (get_results u'))).
Proof.
  intros asort AS keep gen h ss ls n limit t u comps fuel t' fuel' u' NT NU SC OP T U i.
  destruct (new_tracer_table _ _ _ _ _ _ NT) as (TC & EC & ES & EN & EL). destruct (new_tracer_table _ _ _ _ _ _ NU) as (TC' & EC' & ES' & EN' & EL').
  pose proof SC as (SH & _ & ND). rewrite EC in SH.
  assert (SR : source_rays gen u = source_rays gen t) by (unfold source_rays; rewrite ES, ES', EN, EN'; reflexivity).
  assert (K : exists comps', map (shape_of h) (filter keep ls) = map Some comps' /\ thinned (fun X => exists l, In l ls /\ keep l = false /\ shape_of h l = Some X) comps comps').
  { clear - SH. assert (Q : exists comps', map (shape_of h) (filter keep ls) = map Some comps' /\ thinned (fun X => exists l, In l ls /\ keep l = false /\ shape_of h l = Some X) comps comps'); [|exact Q].
    cut (forall ks, (forall l, In l ks -> In l ls) -> forall comps, map (shape_of h) ks = map Some comps ->
      exists comps', map (shape_of h) (filter keep ks) = map Some comps' /\ thinned (fun X => exists l, In l ls /\ keep l = false /\ shape_of h l = Some X) comps comps'); [eauto|].
    clear comps SH. induction ks as [|l ks IH]; intros SUB [|s comps] SH; cbn [map] in SH; try discriminate.
    - exists []. split; [reflexivity|constructor].
    - injection SH as S1 S2. destruct (IH (fun l L => SUB l (or_intror L)) comps S2) as (comps' & E & TH).
      cbn [filter]. destruct (keep l) eqn:KL.
      + exists (s :: comps'). cbn [map]. rewrite S1, E. split; [reflexivity|constructor; exact TH].
      + exists comps'. split; [exact E|]. constructor; [|exact TH]. exists l. split; [apply SUB; left; reflexivity|auto]. }
  destruct K as (comps' & SH' & TH).
  assert (SU : scene h u comps') by (split; [rewrite EC'; exact SH'|split; [exact TC'|eapply thin_nodup; eauto]]).
  destruct (nth_error (source_rays gen t) i) as [c|] eqn:N.
  2:{ left. rewrite !rows_with_id_none; auto.
      - intros w W E. destruct (fields_carried _ _ _ _ _ _ U w W) as (c & K & _). rewrite SR in K. congruence.
      - intros w W E. destruct (fields_carried _ _ _ _ _ _ T w W) as (c & K & _). congruence. }
  pose proof (scene_histories asort AS _ _ _ _ _ _ T SC i c N) as H. rewrite <- SR in N.
  pose proof (scene_histories asort AS _ _ _ _ _ _ U SU i c N) as H'. rewrite EL' in H'. rewrite EL in H.
  refine (cut_weaken _ _ _ _ _ (history_shade asort AS _ comps comps' _ TH ND limit 0 _ _ H _ H')).
  - intros z (X & (l & L1 & L2 & L3) & _ & IZ). exists l, X. auto.
  - intros X (l & L1 & L2 & L3) f If. exact (OP l X f L1 L2 L3 If).
Qed.
Lemma cut_keeps : forall B W V w, cut_short B W V -> In w W -> ~ B (row_surf w) -> In w V.
Proof.
  intros B W V w [->|(rows & x & -> & BX & Q)] I N; [exact I|]. apply in_app_or in I. destruct I as [I|[->|[]]]; [|contradiction].
  destruct Q as [->|(v & later & -> & _)]; [exact I|apply in_or_app; left; exact I].
Qed.
Lemma history_names : forall asort comps surfaces limit g c rows, history asort comps surfaces limit g c rows -> forall w, In w rows -> In (row_surf w) (map s_id surfaces).
Proof.
  intros asort comps surfaces limit g c rows H. induction H as [g c G L|g c S|g c t sid s c' rows G NS F I E M HI IH]; intros w W; [destruct W|destruct W|].
  destruct W as [<-|W]; [cbn [row_surf]; rewrite <- E; apply in_map; exact I|auto].
Qed.

(** *** the absorber behind the sheet of glass *)
Lemma without_absorber : forall asort, argsort_ok asort -> exists h t u t' u',
  new_tracer h [9%nat] [1; 2]%nat 1 2 = Some t /\ new_tracer h [9%nat] (filter (Nat.eqb 1) [1; 2]%nat) 1 2 = Some u /\
  scene h t (map bench_shape [1; 2]%nat) /\
  (forall l X f, In l [1; 2]%nat -> Nat.eqb 1 l = false -> shape_of h l = Some X -> In f (surface_ids X) -> s_mat f = Absorber \/ s_mat f = Untraceable) /\
  trace asort h (emit (-1) 1) 7 t = TOk t' /\ trace asort h (emit (-1) 1) 7 u = TOk u' /\
  f_rows (get_results t') = [glass_row; inside_row] /\ In glass_row (f_rows (get_results u')) /\ ~ In inside_row (f_rows (get_results u')).
Proof.
  intros asort AS. destruct (proper_case asort AS) as (h & t & t' & (B & NT) & P & T & F).
  destruct (a_bench asort) as (h' & B'). destruct (a_run asort h' [1]%nat 2 B' ltac:(repeat constructor)) as (u & B2 & NU).
  rewrite B in B2. injection B2 as <-.
  pose proof (bench_proper asort h (-1) 1 [1]%nat [9%nat] 1 2 u B' ltac:(auto) ltac:(repeat constructor) ltac:(repeat constructor; cbn; lia) ltac:(discriminate) ltac:(lia) NU) as PU.
  destruct (new_tracer_table _ _ _ _ _ _ NU) as (_ & _ & _ & _ & EL).
  destruct (proper_trace_ok asort AS _ _ _ _ 7%nat PU) as (u' & U); [rewrite EL; cbn; lia|].
  assert (S2 : shape_of h 2%nat = Some (bench_shape 2)) by (apply (bench_at asort h 2%nat B'); lia).
  assert (OP : forall l X f, In l [1; 2]%nat -> Nat.eqb 1 l = false -> shape_of h l = Some X -> In f (surface_ids X) -> s_mat f = Absorber \/ s_mat f = Untraceable).
  { intros l X f L K E If. destruct L as [<-|[<-|[]]]; [discriminate|]. rewrite S2 in E. injection E as <-. destruct If as [<-|[]]. left. reflexivity. }
  exists h, t, u, t', u'. do 2 (split; [assumption|]). split; [exact (proj1 P)|]. do 4 (split; [assumption|]).
  pose proof (opaque_components asort AS (Nat.eqb 1) _ _ _ _ _ _ _ _ _ _ _ _ _ NT NU (proj1 P) OP T U 0%nat) as CS. split.
  - apply (in_rows_with_id 0). eapply cut_keeps; [exact CS| |].
    + rewrite F. left. reflexivity.
    + intros (l & X & L & K & E & IX). destruct L as [<-|[<-|[]]]; [discriminate|]. rewrite S2 in E. injection E as <-. destruct IX as [IX|[]]. discriminate IX.
  - intro I. assert (I0 : In inside_row (rows_with_id 0 (f_rows (get_results u')))) by (apply in_rows_with_id; auto).
    destruct (fields_carried _ _ _ _ _ _ U _ I) as (c & K & _).
    pose proof (history_names _ _ _ _ _ _ _ (scene_histories asort AS _ _ _ _ _ _ U (proj1 PU) 0%nat c K) _ I0) as [J|[]]. discriminate J.
Qed.
