(** * MirrorScene: one ray in a scene of a component inside an absorbing sphere *)
From Coq Require Import Reals List Bool ZArith Lra Lia Psatz.
Import ListNotations.
From Verif Require Import XR XRFacts Arr Lin LinFacts Ops OpsFacts SpecOptics Prim Csg Surf SpecGeom SpecTree CsgProps SurfFacts TreeFacts World SpecWorld WorldFacts WorldFacts3 WorldFacts5 WorldFacts4 Tracer SpecTrace
  TraceFacts3 TraceFacts4 TraceFacts5 TraceFacts7 TraceFacts8 TraceFacts9 TraceProps Components SpecComponents BuildFacts ComponentFacts ComponentFacts2 ComponentFacts3 ComponentOptics SpecMotion MotionFacts SpecCrossing Crossing CrossingProps SymmetryExamples GaussExamples OpticsExamples
  SpecPrism PrismLaw PrismFacts PrismProps PrismExamples PrismExamples2 PrismExamples3 MirrorFacts SpecMirrors MirrorTrace.
Open Scope R_scope.

Definition ball_tree : ptree := TLeaf (PSphere 9) Absorber mid 1.
(** One ray in the air *)
Definition beam (r : ray) (s : loc) (n : nat) : list col := [Col r 0 100 (5 / 10) 1 0].

Lemma ball_scene : forall asort, argsort_ok asort -> forall o prog l P r,
  o = Makes prog l -> built asort o P ->
  (exists env T, track (map (shift 1) prog) [Some ball_tree] = Some env /\ nth_error env 0 = Some (Some ball_tree) /\ nth_error env (S l) = Some (Some T)) ->
  Forall (fit_call (fun wl => wl = 5 / 10)) (map (shift 1) prog) ->
  vw (origin r) = 1 -> vw (direction r) = 0 -> unit (direction r) ->
  exists h s g bx t, P s /\ tree_ok s /\ boxes_current s /\ surf_ok g /\ s_prim g = PSphere 9 /\ s_world g = mid /\ s_mat g = Absorber /\
  boxes_current (Leaf g bx) /\ new_tracer h [9%nat] [S l; 0]%nat 1 10 = Some t /\ proper (beam r) h t [s; Leaf g bx].
Proof.
  intros asort AS o prog l P r EO BP (env & T & TR & E0 & E5) FIT W1 W0 UN.
  destruct BP as (prog' & l' & E & B). rewrite EO in E. injection E as <- <-.
  assert (TS : track ball_calls [] = Some [Some ball_tree]) by reflexivity.
  destruct (track_sound asort ball_calls empty_heap 0 [] _ (nice_empty asort) (tracked_start empty_heap) TS) as (h0 & R0 & N0 & T0).
  assert (L0 : length (h_objs h0) = 1%nat) by exact (proj1 T0).
  destruct (B h0 N0) as (h & s & R & Sh & TO & BC & PS). rewrite L0 in R, Sh. change (1 + l)%nat with (S l) in Sh.
  assert (RA : run_prog asort (ball_calls ++ map (shift 1) prog) empty_heap = Ok h).
  { rewrite run_prog_app. change (map (shift 0) ball_calls) with ball_calls in R0. rewrite R0. exact R. }
  destruct (track_sound asort (map (shift 1) prog) h0 0 _ _ N0 T0 TR) as (h' & R' & N' & T').
  assert (SH0 : forall cs, map (shift 0) cs = cs) by (induction cs as [|c cs IH]; [reflexivity|]; cbn [map]; rewrite IH; f_equal; destruct c; try reflexivity; cbn [shift]; f_equal; apply map_id).
  assert (h' = h) by (rewrite SH0 in R'; congruence). subst h'.
  destruct T' as (_ & LS & HL).
  destruct (HL 0%nat _ E0) as (H0 & D0 & _ & AP). destruct (HL (S l) _ E5) as (H5 & D5 & _ & _).
  specialize (AP (S l) _ ltac:(discriminate) E5). rewrite Nat.add_0_l in H0, H5.
  assert (Sb : exists b, shape_of h 0%nat = Some b).
  { inversion H0 as [l1 o1 p m G K|]; subst. unfold shape_of. replace (depth h) with (S (pred (depth h))) by (unfold depth; lia). cbn [shape_fuel]. rewrite G, K. eauto. }
  destruct Sb as (b & Sb).
  pose proof (holds_shape _ _ _ _ H0 _ _ Sb) as EB.
  destruct b as [g bx|]; [|discriminate]. cbn [erase] in EB. injection EB as EP EM EW _. 
  pose proof (nice_wf _ _ N') as WF.
  destruct (new_tracer h [9%nat] [S l; 0]%nat 1 10) as [t|] eqn:NW.
  2:{ exfalso. unfold new_tracer in NW. cbn [map collect] in NW. unfold shape_of in Sh, Sb. destruct (shape_lut _ _ _ _ Sh) as (l5 & L5 & _). destruct (shape_lut _ _ _ _ Sb) as (l0 & L0' & _). unfold lut_of in NW. rewrite L5, L0' in NW. discriminate. }
  assert (PRO : proper (beam r) h t [s; Leaf g bx]).
  { destruct (new_tracer_table _ _ _ _ _ _ NW) as (TC & EC & ESo & EN & EL).
    destruct (program_proper asort (beam r) _ [] h h _ _ _ _ t t RA NW) as (comps & PR); auto.
    + cbn [flat_map]. rewrite (holds_parts _ _ _ _ WF H5), (holds_parts _ _ _ _ WF H0), app_nil_r. apply nodup_append; auto. intros x I5 I0. eapply AP; eauto.
    + rewrite EL. lia.
    + rewrite ESo. discriminate.
    + intros c I. unfold source_rays in I. rewrite ESo, EN in I. cbn [map concat] in I. rewrite app_nil_r in I. destruct I as [<- | []]. split; [|reflexivity].
      unfold ray_ok; cbn [c_ray c_idx]. do 2 (split; [assumption|]). split; [left; assumption|lra].
    + rewrite app_nil_r. apply Forall_app. split; [repeat constructor; cbn; lra|]. eapply Forall_impl; [|exact FIT]. intros c. destruct c as [|p m|ms|gr ms|op a1 b1|l1 mo|l1|l1]; cbn [fit_call]; auto.
      intros (F1 & F2 & F3). split; auto. split; auto. destruct m as [| |ix|]; cbn [optical] in *; auto. intros wl (c & I & <-). apply F3.
      revert I. unfold source_rays. rewrite ESo, EN. cbn [map concat]. rewrite app_nil_r. intros [<- | []]. reflexivity.
    + assert (EQ : comps = [s; Leaf g bx]); [|subst; exact PR]. destruct PR as ((SH & _) & _). rewrite EC in SH. cbn [map] in SH. rewrite Sh, Sb in SH.
      destruct comps as [|c1 [|c2 [|c3 cs]]]; cbn in SH; try discriminate. injection SH as <- <-. reflexivity. }
  exists h, s, g, bx, t. do 3 (split; [assumption|]).
  assert (GO : surf_ok g). { destruct PRO as (_ & _ & _ & _ & PO). destruct (PO g) as (A1 & A2 & A3 & _); [cbn [flat_map surface_ids]; apply in_app_iff; right; left; reflexivity|]. split; auto. }
  do 4 (split; [assumption|]). split; [|split; [exact NW|exact PRO]].
  unfold shape_of in Sb. apply (shape_boxes_current asort AS h) with (n := depth h) (l := 0%nat); auto.
  - apply (run_prog_good _ _ _ _ empty_good RA).
  - assert (KP : parts_upto (depth h) h 0%nat = [0%nat] /\ exists o p m, get h 0%nat = Some o /\ o_kind o = KSurf p m).
    { inversion H0 as [l1 o1 p m G K|]; subst. split; [|exists o1; eauto]. unfold depth. cbn [parts_upto]. rewrite G, K. destruct (length (h_objs h)); reflexivity. }
    destruct KP as (-> & o1 & p & m & G & K). intros x [<- | []] o' op a b G' K'. congruence.
Qed.

Section Rows.
  Variables (asort : list xr -> list nat) (h : heap) (t : tracer) (l : nat) (s : shape) (g : surf) (bx : box) (r : ray).
  Hypotheses (AS : argsort_ok asort) (NW : new_tracer h [9%nat] [S l; 0]%nat 1 10 = Some t) (PRO : proper (beam r) h t [s; Leaf g bx]) (UN : unit (direction r)).
  Let comps := [s; Leaf g bx].
  Definition at_row (t' : tracer) (j : nat) (w : row) (p d : v4) (sid : Z) : Prop :=
    nth_error (rows_with_id 0 (f_rows (get_results t'))) j = Some w /\ row_tilt w = d /\ here (row_end w) = p /\ row_surf w = sid /\ row_gen w = j.
  Lemma first_at : forall q sid, vw (origin r) = 1 -> first_hit asort comps r q sid ->
    exists t' w, trace asort h (beam r) 22 t = TOk t' /\ at_row t' 0 w (ray_at r q) (direction r) sid.
  Proof.
    intros q sid W1 H1. destruct (new_tracer_table _ _ _ _ _ _ NW) as (_ & EC & ES & EN & EL).
    destruct (proper_trace_ok asort AS _ _ _ _ 22 PRO) as (t' & T); [rewrite EL; lia|]. exists t'.
    pose proof PRO as ((SHP & _ & ND) & _ & _ & _ & _).
    assert (SI' : nth_error (source_rays (beam r) t) 0 = Some (Col r 0 100 (5 / 10) 1 0)) by (unfold source_rays; rewrite ES, EN; reflexivity).
    set (rows := rows_with_id 0 (f_rows (get_results t'))).
    assert (NE : rows <> []).
    { intro X. apply (no_row asort AS _ _ _ _ _ comps T SHP 0%nat (Col r 0 100 (5 / 10) 1 0)) in X; [|exact SI'].
      destruct X as [X|X].
      - unfold stopped, vnorm in X. cbn [c_ray] in X. unfold unit in UN. rewrite UN, sqrt_1 in X. unfold atol in X. lra.
      - destruct H1 as (a & b & R & _). apply (X _ _ _ _ R). }
    destruct rows as [|w1 rs] eqn:ER'; [contradiction|]. unfold rows in ER'. exists w1. split; [exact T|].
    assert (J1 : nth_error (rows_with_id 0 (f_rows (get_results t'))) 0 = Some w1) by (rewrite ER'; reflexivity).
    destruct (proper_bounces asort AS _ _ _ _ _ _ PRO T 0%nat _ eq_refl) as (B0 & _ & _). destruct (B0 w1 J1) as (c & C & FR).
    rewrite SI' in C. injection C as <-. destruct FR as (S1 & D1 & X1 & L1 & G1 & _). cbn [c_ray c_idx c_wl c_gen] in *.
    destruct (proper_legs asort AS _ _ _ _ _ _ PRO T) as (LG & _).
    assert (LG1 : leg asort comps w1) by (apply LG, (in_rows_with_id 0 _ w1); apply nth_error_In in J1; exact J1).
    assert (R1 : Ray (here (row_start w1)) (row_tilt w1) = r) by (rewrite S1, D1, here_trim by exact W1; destruct r; reflexivity).
    destruct (leg_end _ _ _ r _ _ LG1 R1 H1) as (RS1 & E1). unfold at_row. auto.
  Qed.
  Lemma next_at : forall t' j w p v sid f n q d sid', trace asort h (beam r) 22 t = TOk t' -> at_row t' j w p v sid ->
    (j < 9)%nat -> In f (flat_map surface_ids comps) -> s_id f = sid -> s_mat f = Mirror -> world_normal f p = Some n -> unit n ->
    d = vsub v (vscale (2 * vdot v n) n) -> vw p = 1 -> vw d = 0 ->
    first_hit asort comps (Ray (vadd p (vscale ray_offset_value d)) d) q sid' ->
    exists w', at_row t' (S j) w' (vadd p (vscale (ray_offset_value + q) d)) d sid'.
  Proof.
    intros t' j w p v sid f n q d sid' T (J & TI & EN & SU & GE) JL IF ID MA WN NU DE W1 D0 H1.
    destruct (new_tracer_table _ _ _ _ _ _ NW) as (_ & EC & ES & EM & EL).
    pose proof PRO as ((SHP & _ & ND) & _ & _ & _ & _).
    assert (NX : forall w', follows w w' -> SpecTrace.bounce (flat_map surface_ids comps) w w' ->
      row_tilt w' = d /\ Ray (here (row_start w')) (row_tilt w') = Ray (vadd p (vscale ray_offset_value d)) d).
    { intros w' FO (f' & n' & IF' & ID' & WN' & UN' & BO). assert (f' = f) by (apply (same_surface (flat_map surface_ids comps)); auto; congruence). subst f'.
      rewrite EN, WN in WN'. injection WN' as <-. rewrite MA in BO. destruct BO as (_ & MI). pose proof (mirrored_reflect _ _ _ NU MI) as E. rewrite TI, <- DE in E. split; auto.
      rewrite E. f_equal. destruct FO as (-> & _). rewrite E. rewrite <- EN in *. destruct (row_end w) as [a1 a2 a3 a4], d as [b1 b2 b3 b4]. cbn [vw] in D0. subst b4.
      unfold here, vset_w, vadd, vscale; cbn [vx vy vz vw]. f_equal. ring. }
    destruct (advance asort AS _ _ _ _ _ _ 0%nat j w f PRO T J) as (w' & J' & FO & BO & LG & _); auto.
    - rewrite GE, EL. lia.
    - congruence.
    - rewrite MA. discriminate.
    - intros w' FO BO _ _. destruct (NX w' FO BO) as (_ & ->). eauto.
    - exists w'. destruct (NX w' FO BO) as (TI' & R'). destruct (leg_end _ _ _ _ _ _ LG R' H1) as (SU' & EN').
      split; [exact J'|]. split; [exact TI'|]. split; [|split; [exact SU'|rewrite (proj2 FO), GE; reflexivity]].
      rewrite EN'. destruct p as [a1 a2 a3 a4], d as [b1 b2 b3 b4]. unfold ray_at, vadd, vscale; cbn [origin direction vx vy vz vw]. f_equal; ring.
  Qed.
  (** ** First hits *)
  Hypotheses (GO : surf_ok g) (GP : s_prim g = PSphere 9) (GW : s_world g = mid).
  Lemma shell_at : forall x y z, placed g (pt x y z) <-> x * x + y * y + z * z <= 81.
  Proof.
    intros x y z. rewrite (placed_of g (pt x y z)); auto; [|rewrite GW, mapply_mid; reflexivity].
    rewrite GP. unfold pt; cbn [solid vx vy vz]. split; lra.
  Qed.
  Lemma with_shell : forall u q sid a b, world_ray u -> first_hit asort [s] u q sid -> a <= 0 -> q < b -> placed g (ray_at u a) -> placed g (ray_at u b) -> first_hit asort comps u q sid.
  Proof.
    intros u q sid a b W F A B PA PB. pose proof (first_hit_pos _ _ _ _ _ F) as Q.
    assert (G : good_local (s_prim g) (ray_map (s_obj g) u)) by (rewrite GP; split; exact Logic.I).
    destruct (hits_chord g u GO W G a b PA PB ltac:(lra)) as (t0 & t1 & E & L0 & L1 & _).
    destruct F as (i & k & R & M). exists i, k. split.
    - destruct R as (s' & N & R). exists s'. destruct i as [|[|i]]; cbn in N; try discriminate. injection N as <-. auto.
    - intros i' k' t' sid' (s' & N & H1 & H2 & H3). destruct i' as [|[|i']]; cbn in N; [| |destruct i'; discriminate].
      + injection N as <-. apply (M 0%nat k' t' sid'). exists s. auto.
      + injection N as <-. left. apply nth_error_In in H1.
        assert (In (Fin t') (surf_hits g u)) by exact H1.
        rewrite E in H. destruct H as [H|[H|[]]]; injection H as <-; lra.
  Qed.
  (** Only the sphere is met: the component's surfaces are passed from outside to outside *)
  Lemma shell_only : forall u q, world_ray u -> no_hit asort [s] u \/ (forall i k t' sid, reports asort [s] u i k t' sid -> q < t') -> 0 < q ->
    placed g (ray_at u 0) -> placed g (ray_at u q) -> (forall t', q < t' -> ~ placed g (ray_at u t')) -> first_hit asort comps u q (s_id g).
  Proof.
    intros u q W NO Q P0 PQ NQ.
    assert (G : good_local (s_prim g) (ray_map (s_obj g) u)) by (rewrite GP; split; exact Logic.I).
    destruct (hits_chord g u GO W G 0 q P0 PQ ltac:(lra)) as (t0 & t1 & E & L0 & L1 & PL).
    assert (t1 = q). { destruct (Req_dec t1 q); auto. exfalso. apply (NQ t1); [lra|]. apply PL. lra. } subst t1.
    assert (SI : shape_intersect asort (Leaf g bx) u = ([Fin t0; Fin q], [s_id g; s_id g])).
    { cbn [shape_intersect]. rewrite E. reflexivity. }
    exists 1%nat, 1%nat. split.
    - exists (Leaf g bx). rewrite SI. cbn. auto.
    - intros i' k' t' sid' (s' & N & H1 & H2 & H3). destruct i' as [|[|i']]; cbn in N; [| |destruct i'; discriminate]; injection N as <-.
      + left. destruct NO as [NO|NO]; [exfalso; apply (NO 0%nat k' t' sid')|apply (NO 0%nat k' t' sid')]; exists s; auto.
      + rewrite SI in H1. destruct k' as [|[|k']]; cbn in H1; [injection H1 as <-|injection H1 as <-|destruct k'; discriminate].
        * right. lra.
        * right. auto.
  Qed.
End Rows.
