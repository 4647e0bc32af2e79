(** * MediumExamples: a slab of glass inside an absorbing ball *)
From Coq Require Import Reals List Bool ZArith Lra Lia Psatz.
Import ListNotations.
From Verif Require Import XR XRFacts Arr Lin LinFacts Ops OpsFacts SpecOptics Prim Csg Surf SpecGeom SpecTree SpecNormal CsgProps SurfFacts TreeFacts World SpecWorld WorldFacts WorldFacts3 WorldFacts5 WorldFacts4 Tracer SpecTrace
  TraceFacts4 TraceFacts5 TraceFacts7 TraceFacts8 TraceFacts9 TraceProps Components SpecComponents BuildFacts ComponentFacts ComponentFacts2 ComponentFacts3 SpecCrossing Crossing CrossingProps CrossingExamples SymmetryExamples GaussExamples
  SpecMedium NormalSides MediumFacts MediumProps PrismExamples2.
Open Scope R_scope.

(** Two solids as they are made, seen by any rays *)
Definition leaf_as (g : surf) (p : prim) (m : material) : Prop :=
  surf_ok g /\ s_prim g = p /\ s_mat g = m /\ s_world g = mid /\ s_nscale g = 1.
Lemma two_scene : forall asort, argsort_ok asort -> forall p1 m1 p2 m2 cols,
  prim_init p1 <> None -> prim_init p2 <> None -> prim_ok p1 -> capped p1 -> optical (fun wl => exists c, In c cols /\ c_wl c = wl) m1 ->
  prim_ok p2 -> capped p2 -> optical (fun wl => exists c, In c cols /\ c_wl c = wl) m2 ->
  (forall c, In c cols -> ray_ok c /\ c_gen c = O) ->
  exists h g1 b1 g2 b2 t, leaf_as g1 p1 m1 /\ leaf_as g2 p2 m2 /\ boxes_current (Leaf g1 b1) /\ boxes_current (Leaf g2 b2) /\
  new_tracer h [9%nat] [0; 1]%nat 1 10 = Some t /\ proper (fun _ _ => cols) h t [Leaf g1 b1; Leaf g2 b2] /\ source_rays (fun _ _ => cols) t = cols /\ t_limit t = 10%Z.
Proof.
  intros asort AS p1 m1 p2 m2 cols I1 I2 PO1 CA1 OP1 PO2 CA2 OP2 RO.
  set (cs := [CSurface p1 m1; CSurface p2 m2]).
  assert (TS : track cs [] = Some [Some (TLeaf p1 m1 mid 1); Some (TLeaf p2 m2 mid 1)]).
  { unfold cs. cbn [track track_call]. destruct (prim_init p1); [|contradiction]. cbn [track track_call]. destruct (prim_init p2); [reflexivity|contradiction]. }
  destruct (track_sound asort cs empty_heap 0 [] _ (nice_empty asort) (tracked_start empty_heap) TS) as (h & R & N & T0).
  assert (ER : map (shift 0) cs = cs) by reflexivity. rewrite ER in R.
  destruct T0 as (_ & LS & HL). destruct (HL 0%nat _ eq_refl) as (H0 & D0 & _ & AP). destruct (HL 1%nat _ eq_refl) as (H1 & D1 & _ & _).
  specialize (AP 1%nat _ ltac:(discriminate) eq_refl). rewrite Nat.add_0_l in H0, H1.
  assert (SB : forall l p m, holds h l (TLeaf p m mid 1) (LS l) -> exists g b, shape_of h l = Some (Leaf g b) /\ s_prim g = p /\ s_mat g = m /\ s_world g = mid /\ s_nscale g = 1 /\ boxes_current (Leaf g b)).
  { intros l p m HO. assert (Sb : exists b, shape_of h l = Some b).
    { inversion HO as [l' o p' m' G K|]; subst. unfold shape_of. replace (depth h) with (S (pred (depth h))) by (unfold depth; lia). cbn [shape_fuel]. rewrite G, K. eauto. }
    destruct Sb as (b & Sb). pose proof (holds_shape _ _ _ _ HO _ _ Sb) as EB. destruct b as [g bx|]; [|discriminate]. cbn [erase] in EB. injection EB as EP EM EW EN.
    exists g, bx. do 5 (split; [auto; congruence|]). unfold shape_of in Sb. apply (shape_boxes_current asort AS h) with (n := depth h) (l := l); auto.
    - apply (run_prog_good _ _ _ _ empty_good R).
    - assert (KP : parts_upto (depth h) h l = [l] /\ exists o p m, get h l = Some o /\ o_kind o = KSurf p m).
      { inversion HO as [l' o p' m' G K|]; subst. split; [|exists o; eauto]. unfold depth. cbn [parts_upto]. rewrite G, K. destruct (length (h_objs h)); reflexivity. }
      destruct KP as (-> & o & p' & m' & G & K). intros x [<- | []] o' op a b G' K'. congruence. }
  destruct (SB 0%nat _ _ H0) as (g1 & b1 & S1 & P1 & M1 & W1 & N1 & B1). destruct (SB 1%nat _ _ H1) as (g2 & b2 & S2 & P2 & M2 & W2 & N2 & B2).
  pose proof (nice_wf _ _ N) as WF.
  destruct (new_tracer h [9%nat] [0; 1]%nat 1 10) as [t|] eqn:NW.
  2:{ exfalso. unfold new_tracer in NW. cbn [map collect] in NW. pose proof S1 as S1'. pose proof S2 as S2'. unfold shape_of in S1', S2'.
      destruct (shape_lut _ _ _ _ S1') as (l0 & L0' & _). destruct (shape_lut _ _ _ _ S2') as (l1 & L1 & _). unfold lut_of in NW. rewrite L0', L1 in NW. discriminate. }
  destruct (new_tracer_table _ _ _ _ _ _ NW) as (TC & EC & ESo & EN & EL).
  assert (SR : source_rays (fun _ _ => cols) t = cols) by (unfold source_rays; rewrite ESo; cbn [map concat]; rewrite app_nil_r; reflexivity).
  assert (PRO : proper (fun _ _ => cols) h t [Leaf g1 b1; Leaf g2 b2]).
  { destruct (program_proper asort (fun _ _ => cols) _ [] h h _ _ _ _ t t R NW) as (comps & PR); auto.
    + cbn [flat_map]. rewrite (holds_parts _ _ _ _ WF H0), (holds_parts _ _ _ _ WF H1), app_nil_r. apply nodup_append; auto; intros x I0 I1; eapply AP; eauto.
    + rewrite EL. lia.
    + rewrite ESo. discriminate.
    + intros c I. apply RO. rewrite SR in I. exact I.
    + rewrite app_nil_r. rewrite SR. repeat constructor; cbn [fit_call]; auto.
    + assert (EQ : comps = [Leaf g1 b1; Leaf g2 b2]); [|subst; exact PR]. destruct PR as ((SH & _) & _). rewrite EC in SH. cbn [map] in SH. rewrite S1, S2 in SH.
      destruct comps as [|c1 [|c2 [|c3 cs']]]; cbn in SH; try discriminate. injection SH as <- <-. reflexivity. }
  assert (OK : forall g, In g [g1; g2] -> surf_ok g). { intros g I. destruct PRO as (_ & _ & _ & _ & PO). destruct (PO g) as (A1 & A2 & A3 & _); [exact I|]. split; auto. }
  exists h, g1, b1, g2, b2, t. split; [split; [apply OK; left; reflexivity|auto]|]. split; [split; [apply OK; right; left; reflexivity|auto]|]. auto 10.
Qed.

(** ** The slab and the ball *)
Definition slab : prim := PCube (-5, -5, 1) (5, 5, 2).
Definition water : material := Refractor (fun _ => Fin (4 / 3)).
Definition flat (a c e f : R) : ray := Ray (V4 a 0 c 1) (V4 e 0 f 0).
Lemma flat_at : forall a c e f t, ray_at (flat a c e f) t = V4 (a + t * e) 0 (c + t * f) 1.
Proof. intros. unfold ray_at, flat; cbn. f_equal; ring. Qed.
Lemma leaf_obj : forall g p m, leaf_as g p m -> s_obj g = mid.
Proof. intros g p m ((_ & _ & I) & _ & _ & W & _). rewrite W in I. apply (inverse_unique mid); [apply I|]. rewrite mmul_mid_r. reflexivity. Qed.
Lemma leaf_placed : forall g p m x, leaf_as g p m -> vw x = 1 -> (placed g x <-> solid p x).
Proof.
  intros g p m x L W. pose proof (leaf_obj g p m L) as EO. destruct L as (OK & EP & _). rewrite placed_local by auto. rewrite EO, EP, mapply_mid. tauto.
Qed.
Lemma vnorm_part : forall v eps, vnorm v < eps -> Rabs (vx v) < eps /\ Rabs (vy v) < eps /\ Rabs (vz v) < eps.
Proof.
  intros v eps H. unfold vnorm in H.
  assert (K : forall a, a * a <= vdot v v -> Rabs a < eps).
  { intros a A. apply Rle_lt_trans with (sqrt (vdot v v)); auto. rewrite <- (sqrt_Rsqr (Rabs a)) by apply Rabs_pos. apply sqrt_le_1_alt. rewrite <- Rsqr_abs. exact A. }
  unfold vdot in K. repeat split; apply K; nra.
Qed.
Section Slab.
  Variables (asort : list xr -> list nat) (g1 g2 : surf) (b1 b2 : box).
  Hypotheses (AS : argsort_ok asort) (L1 : leaf_as g1 slab water) (L2 : leaf_as g2 (PSphere 9) Absorber)
    (B1 : boxes_current (Leaf g1 b1)) (B2 : boxes_current (Leaf g2 b2)) (ND : NoDup (map s_id [g1; g2])).
  Let comps := [Leaf g1 b1; Leaf g2 b2].
  Lemma in_slab : forall x, vw x = 1 -> (placed g1 x <-> -5 <= vx x <= 5 /\ -5 <= vy x <= 5 /\ 1 <= vz x <= 2).
  Proof.
    intros x W. rewrite (leaf_placed _ _ _ _ L1 W). cbn [solid slab]. unfold between. rewrite !Rmin_left, !Rmax_right by lra. tauto.
  Qed.
  Lemma in_ball : forall x, vw x = 1 -> (placed g2 x <-> vx x * vx x + vy x * vy x + vz x * vz x <= 9 * 9).
  Proof. intros x W. rewrite (leaf_placed _ _ _ _ L2 W). cbn [solid]. tauto. Qed.
  Lemma slab_bench : bench comps.
  Proof.
    split.
    - intros s [<- | [<- | []]].
      + exists water. split; [intros f [<- | []]; apply L1|]. intros idx _. destruct L1 as (_ & EP & _ & _ & NS). split; [intros f [<- | []]; rewrite EP; reflexivity|].
        intros f e [E|[]]. injection E as <- <-. exact NS.
      + exists Absorber. split; [intros f [<- | []]; apply L2|]. discriminate.
    - assert (Z : forall g, ~ of_glass (Leaf g2 b2) g). { intros g (_ & M). specialize (M g2 (or_introl eq_refl)). destruct L2 as (_ & _ & E & _). congruence. }
      intros s s' g g' x [<- | [<- | []]] [<- | [<- | []]] G G' _ _; auto; exfalso; [apply (Z g')|apply (Z g)]; auto.
  Qed.
  Lemma glass_only : forall s g, In s comps -> of_glass s g -> s = Leaf g1 b1 /\ g = (fun _ => Fin (4 / 3)).
  Proof.
    intros s g [<- | [<- | []]] (_ & M).
    - split; auto. specialize (M g1 (or_introl eq_refl)). destruct L1 as (_ & _ & E & _). unfold water in E. congruence.
    - exfalso. specialize (M g2 (or_introl eq_refl)). destruct L2 as (_ & _ & E & _). congruence.
  Qed.
  Lemma slab_glass : of_glass (Leaf g1 b1) (fun _ => Fin (4 / 3)).
  Proof. split; [cbn; destruct L1 as (_ & -> & _); reflexivity|]. intros f [<- | []]. apply L1. Qed.

  Variables (a c e f : R).
  Hypotheses (UN : e * e + f * f = 1) (CE : 1 / 2 <= Rabs e) (CF : 1 / 2 <= Rabs f).
  Let r := flat a c e f.
  Lemma flat_world : world_ray r.
  Proof. split; [reflexivity|]. split; [reflexivity|]. intros (X & _ & Z). cbn in X, Z. nra. Qed.
  Lemma flat_visible : forall s, In s comps -> visible r s.
  Proof.
    assert (CL : forall d, 1 / 2 <= Rabs d -> clear d) by (intros d D; right; unfold atol; lra).
    intros s [<- | [<- | []]].
    - pose proof (leaf_obj _ _ _ L1) as EO. destruct L1 as (OK & EP & _). split; [right; intros g [<- | []]; rewrite EP; reflexivity|]. split; [exact OK|]. split; [exact B1|]. split; [exact Logic.I|].
      cbn [good_ray]. rewrite EO, EP. split; [|exact Logic.I]. unfold r, flat, ray_map. rewrite !mapply_mid. cbn [clear_ray slab direction vx vy vz].
      split; [apply CL; auto|]. split; [left; reflexivity|apply CL; auto].
    - destruct L2 as (OK & EP & _). split; [right; intros g [<- | []]; rewrite EP; reflexivity|]. split; [exact OK|]. split; [exact B2|]. split; [exact Logic.I|].
      cbn [good_ray]. rewrite EP. split; exact Logic.I.
  Qed.
  Hypotheses (IN : a * a + c * c < 81) (X1 : -5 < a + (1 - c) / f * e < 5) (X2 : -5 < a + (2 - c) / f * e < 5).
  Definition near_z : R := Rmin ((1 - c) / f) ((2 - c) / f).
  Definition far_z : R := Rmax ((1 - c) / f) ((2 - c) / f).
  Lemma f_nz : f <> 0.
  Proof. intro Z. rewrite Z, Rabs_R0 in CF. lra. Qed.
  Lemma z_range : forall t, 1 <= c + t * f <= 2 <-> near_z <= t <= far_z.
  Proof.
    intro t. unfold near_z, far_z. pose proof f_nz as NZ.
    assert (E1 : (1 - c) / f * f = 1 - c) by (field; auto). assert (E2 : (2 - c) / f * f = 2 - c) by (field; auto).
    set (p := (1 - c) / f) in *. set (q := (2 - c) / f) in *. clearbody p q.
    destruct (Rlt_dec 0 f) as [F|F].
    - rewrite Rmin_left, Rmax_right by nra. split; intros (A & B); split; nra.
    - assert (f < 0) by lra. rewrite Rmin_right, Rmax_left by nra. split; intros (A & B); split; nra.
  Qed.
  Lemma z_order : near_z < far_z.
  Proof.
    unfold near_z, far_z. pose proof f_nz as NZ.
    assert (E1 : (1 - c) / f * f = 1 - c) by (field; auto). assert (E2 : (2 - c) / f * f = 2 - c) by (field; auto).
    set (p := (1 - c) / f) in *. set (q := (2 - c) / f) in *. clearbody p q.
    destruct (Rlt_dec 0 f) as [F|F]; [rewrite Rmin_left, Rmax_right by nra; nra|assert (f < 0) by lra; rewrite Rmin_right, Rmax_left by nra; nra].
  Qed.
  Lemma flat_slab : forall t, placed g1 (ray_at r t) <-> near_z <= t <= far_z.
  Proof.
    intro t. unfold r. rewrite flat_at, in_slab by reflexivity. cbn [vx vy vz]. rewrite <- z_range. split; [tauto|]. intro Z. split; [|split; [lra|exact Z]].
    apply z_range in Z. pose proof Z as Z'. unfold near_z, far_z in Z. 
    set (p := (1 - c) / f) in *. set (q := (2 - c) / f) in *. clearbody p q.
    destruct (Rle_dec p q) as [O|O]; [rewrite Rmin_left, Rmax_right in Z by lra|rewrite Rmin_right, Rmax_left in Z by lra];
    destruct (Rle_dec 0 e); split; nra.
  Qed.
  Lemma flat_slab_hits : surf_hits g1 r = [Fin near_z; Fin far_z].
  Proof.
    apply chord_is; [apply L1|apply flat_world| |apply z_order|apply flat_slab].
    destruct (flat_visible (Leaf g1 b1) (or_introl eq_refl)) as (_ & _ & _ & _ & G). exact G.
  Qed.
  Definition half : R := sqrt ((a * e + c * f) * (a * e + c * f) + 81 - a * a - c * c).
  Lemma half_sq : half * half = (a * e + c * f) * (a * e + c * f) + 81 - a * a - c * c /\ 0 < half.
  Proof. unfold half. pose proof (Rle_0_sqr (a * e + c * f)) as SQ. unfold Rsqr in SQ. assert (0 < (a * e + c * f) * (a * e + c * f) + 81 - a * a - c * c) by lra. split; [apply sqrt_sqrt; lra|apply sqrt_lt_R0; auto]. Qed.
  Lemma flat_ball : forall t, placed g2 (ray_at r t) <-> - (a * e + c * f) - half <= t <= - (a * e + c * f) + half.
  Proof.
    intro t. unfold r. rewrite flat_at, in_ball by reflexivity. cbn [vx vy vz]. destruct half_sq as (H & P).
    set (k := a * e + c * f) in *. set (s := half) in *. clearbody s.
    assert (Q : (a + t * e) * (a + t * e) + 0 * 0 + (c + t * f) * (c + t * f) = (t + k) * (t + k) + (a * a + c * c - k * k)).
    { unfold k. transitivity (a * a + c * c + 2 * t * (a * e + c * f) + t * t * (e * e + f * f)); [ring|rewrite UN; ring]. }
    rewrite Q. split; intro Z; [split|]; nra.
  Qed.
  Lemma flat_ball_hits : surf_hits g2 r = [Fin (- (a * e + c * f) - half); Fin (- (a * e + c * f) + half)].
  Proof.
    destruct half_sq. apply chord_is; [apply L2|apply flat_world| |lra|apply flat_ball].
    destruct (flat_visible (Leaf g2 b2)) as (_ & _ & _ & _ & G); [right; left; reflexivity|]. exact G.
  Qed.
  Lemma ball_beyond : near_z < - (a * e + c * f) + half /\ far_z < - (a * e + c * f) + half /\ - (a * e + c * f) - half < near_z /\ - (a * e + c * f) - half < far_z.
  Proof.
    pose proof z_order as O. destruct half_sq as (H & P).
    assert (K : forall t, near_z <= t <= far_z -> - (a * e + c * f) - half < t < - (a * e + c * f) + half).
    { intros t T. apply flat_slab in T. unfold r in T. rewrite flat_at, in_slab in T by reflexivity. cbn [vx vy vz] in T.
      set (k := a * e + c * f) in *. set (s := half) in *. clearbody s.
      assert (Q : (a + t * e) * (a + t * e) + (c + t * f) * (c + t * f) = (t + k) * (t + k) + (a * a + c * c - k * k)).
      { unfold k. transitivity (a * a + c * c + 2 * t * (a * e + c * f) + t * t * (e * e + f * f)); [ring|rewrite UN; ring]. }
      assert ((a + t * e) * (a + t * e) <= 25) by nra. assert ((c + t * f) * (c + t * f) <= 4) by nra. split; nra. }
    pose proof (K near_z ltac:(lra)). pose proof (K far_z ltac:(lra)). lra.
  Qed.
  Lemma flat_seen : seen comps r.
  Proof.
    split; [apply flat_visible|]. intros q t _. unfold comps. cbn [flat_map surface_ids app]. unfold edges.
    destruct L1 as (_ & E1 & _), L2 as (_ & E2 & _). rewrite E1, E2. cbn [is_plane slab]. rewrite flat_slab_hits, flat_ball_hits. cbn [app].
    pose proof ball_beyond. pose proof z_order. destruct half_sq.
    apply (proj1 (NoDup_count_occ xr_eq_dec _)). repeat constructor; cbn [In]; intuition (try congruence);
      match goal with E : Fin _ = Fin _ |- _ => injection E; intro; lra end.
  Qed.
  Lemma ball_side : sheet (Leaf g1 b1) = false /\ sheet (Leaf g2 b2) = false.
  Proof. cbn [sheet]. destruct L1 as (_ & -> & _), L2 as (_ & -> & _). split; reflexivity. Qed.
  Lemma slab_from : forall q, 0 < q -> far_z < 0 \/ q <= near_z \/ (near_z < 0 /\ q <= far_z) -> undisturbed (Leaf g1 b1) r q.
  Proof.
    intros q Q H. unfold undisturbed. rewrite (proj1 ball_side). pose proof z_order. destruct H as [H|[H|(H & H')]].
    - right. exists []. intros t T _. cbn [inside]. rewrite flat_slab. lra.
    - right. exists []. intros t T _. cbn [inside]. rewrite flat_slab. lra.
    - left. exists []. intros t T _. cbn [inside]. rewrite flat_slab. lra.
  Qed.
  Lemma ball_from : forall q, 0 < q -> q <= - (a * e + c * f) + half -> undisturbed (Leaf g2 b2) r q.
  Proof.
    intros q Q H. unfold undisturbed. rewrite (proj2 ball_side). left. exists []. intros t T _. cbn [inside]. rewrite flat_ball.
    destruct half_sq as (S & P). set (k := a * e + c * f) in *. set (s := half) in *. clearbody s. assert (- s < k < s); [|lra]. split; nra.
  Qed.
  Lemma ball_q : 0 < - (a * e + c * f) + half.
  Proof. destruct half_sq as (S & P). set (k := a * e + c * f) in *. set (s := half) in *. clearbody s. nra. Qed.
  Lemma flat_near : 0 < near_z -> first_hit asort comps r near_z (s_id g1).
  Proof.
    intro P. destruct flat_seen as (V & SP). apply (first_crossing asort AS comps r near_z (s_id g1) flat_world V P (SP near_z)). pose proof ball_beyond as BB. pose proof z_order as ZO. split.
    - intros s [<- | [<- | []]]; [apply slab_from; lra|apply ball_from; lra].
    - exists (Leaf g1 b1), g1. split; [left; reflexivity|]. split; [|split; [left; reflexivity|]; split; [rewrite flat_slab_hits; left; reflexivity|reflexivity]].
      unfold meets. rewrite (proj1 ball_side). right. exists (far_z - near_z). split; [lra|]. cbn [inside]. split; intros t T; rewrite flat_slab; lra.
  Qed.
  Lemma flat_far : near_z < 0 < far_z -> first_hit asort comps r far_z (s_id g1).
  Proof.
    intro P. destruct flat_seen as (V & SP). apply (first_crossing asort AS comps r far_z (s_id g1) flat_world V (proj2 P) (SP far_z)). pose proof ball_beyond as BB. pose proof z_order as ZO. split.
    - intros s [<- | [<- | []]]; [apply slab_from; lra|apply ball_from; lra].
    - exists (Leaf g1 b1), g1. split; [left; reflexivity|]. split; [|split; [left; reflexivity|]; split; [rewrite flat_slab_hits; right; left; reflexivity|reflexivity]].
      unfold meets. rewrite (proj1 ball_side). left. exists (far_z - near_z). split; [lra|]. cbn [inside]. split; intros t T; rewrite flat_slab; lra.
  Qed.
  Lemma flat_last : far_z < 0 -> first_hit asort comps r (- (a * e + c * f) + half) (s_id g2).
  Proof.
    intro P. destruct flat_seen as (V & SP). pose proof ball_q as BQ. apply (first_crossing asort AS comps r _ (s_id g2) flat_world V BQ (SP _)). pose proof ball_beyond as BB. pose proof z_order as ZO. destruct half_sq as (_ & HP). split.
    - intros s [<- | [<- | []]]; [apply slab_from; lra|apply ball_from; lra].
    - exists (Leaf g2 b2), g2. split; [right; left; reflexivity|]. split; [|split; [left; reflexivity|]; split; [rewrite flat_ball_hits; right; left; reflexivity|reflexivity]].
      unfold meets. rewrite (proj2 ball_side). left. exists half. split; [lra|]. cbn [inside]. split; intros t T; rewrite flat_ball; lra.
  Qed.
End Slab.

(** ** Refraction at the slab: rays up and down (k = 1 and k = -1) *)
Section Turns.
  Variables (g1 g2 : surf) (b1 b2 : box).
  Hypotheses (L1 : leaf_as g1 slab water) (L2 : leaf_as g2 (PSphere 9) Absorber) (ND : NoDup (map s_id [g1; g2])).
  Lemma slab_normal : forall x z k, -4 < x < 4 -> k = 1 /\ z = 2 \/ k = -1 /\ z = 1 -> world_normal g1 (V4 x 0 z 1) = Some (V4 0 0 k 0).
  Proof.
    intros x z k X Z. unfold world_normal. rewrite (leaf_obj _ _ _ L1). destruct L1 as (_ & EP & _ & _ & EN). rewrite EP, EN, mapply_mid. cbn [prim_normal slab]. unfold cube_normal. cbn [vx vy vz].
    rewrite !Rmin_left, !Rmax_right by lra. unfold cube_normal_axis.
    assert (IC : forall v b, Rabs (v - b) > 1 / 2 -> Rabs b <= 5 -> isclose v b = false).
    { intros v b D B. unfold isclose. apply Bool.not_true_iff_false. rewrite rleb_true. unfold atol, rtol. intro J. lra. }
    rewrite !(IC x) by (try (unfold Rabs; repeat destruct Rcase_abs; lra)). rewrite !(IC 0) by (try (unfold Rabs; repeat destruct Rcase_abs; lra)).
    assert (IS : forall v, isclose v v = true). { intro v. unfold isclose. apply rleb_true. rewrite Rminus_diag_eq by reflexivity. rewrite Rabs_R0. unfold atol, rtol. pose proof (Rabs_pos v). lra. }
    assert (NU : forall v, vdot v v = 1 -> vnormalize v = Some v).
    { intros v V. unfold vnormalize. destruct (Req_EM_T (vdot v v) 0) as [Q|_]; [lra|]. unfold vnorm. rewrite V, sqrt_1, Rinv_1. f_equal. destruct v; unfold vscale; cbn. f_equal; ring. }
    destruct Z as [(-> & ->)|(-> & ->)]; [rewrite (IS 2)|rewrite (IC 1 2), (IS 1) by (unfold Rabs; repeat destruct Rcase_abs; lra)].
    - rewrite NU by (unfold vdot; cbn; ring). cbn beta iota. rewrite NU by (vsimp; ring). cbn beta iota. f_equal. vsimp. f_equal; ring.
    - rewrite NU by (unfold vdot; cbn; ring). cbn beta iota. rewrite NU by (vsimp; ring). cbn beta iota. f_equal. vsimp. f_equal; ring.
  Qed.
  Lemma slab_turn : forall w w' x z k e f n2, -4 < x < 4 -> k = 1 /\ z = 2 \/ k = -1 /\ z = 1 -> here (row_end w) = V4 x 0 z 1 -> row_surf w = s_id g1 ->
    SpecTrace.bounce [g1; g2] w w' -> unit (row_tilt w') -> vw (row_tilt w') = 0 ->
    row_tilt w = V4 e 0 f 0 -> n2 = (if Rlt_dec 0 (f * k) then 1 else 4 / 3) -> f * k <> 0 -> row_idx w * row_idx w * (e * e) < n2 * n2 -> 0 < row_idx w ->
    row_idx w' = n2 /\ n2 * vx (row_tilt w') = row_idx w * e /\ vy (row_tilt w') = 0 /\ 0 < f * vz (row_tilt w').
  Proof.
    intros w w' x z k e f n2 X Z H RS (g & n & G & E & NO & UN & B) U D T EN NZ SN PI.
    assert (g = g1) by (apply (same_surface [g1; g2]); auto; [left; reflexivity|congruence]). subst g.
    rewrite H, (slab_normal x z k X Z) in NO. injection NO as <-. destruct L1 as (_ & _ & EM & _). rewrite EM in B. unfold water in B. destruct B as (m & M & R & _). injection M as <-.
    assert (K2 : k * k = 1) by (destruct Z as [(-> & _)|(-> & _)]; ring).
    assert (DN : vdot (row_tilt w) (V4 0 0 k 0) = f * k) by (rewrite T; unfold vdot; cbn; ring).
    assert (TA : tangential (row_tilt w) (V4 0 0 k 0) = V4 e 0 0 0).
    { unfold tangential. rewrite DN, T. vsimp. f_equal; try ring. transitivity (f - f * (k * k)); [ring|rewrite K2; ring]. }
    assert (NI : next_index (row_tilt w) (V4 0 0 k 0) (4 / 3) world_index = n2) by (unfold next_index; rewrite DN, EN; reflexivity).
    cbv zeta in R. rewrite NI, TA, DN in R. destruct R as (RI & RT & RS').
    - assert (NV : vnorm (V4 e 0 0 0) = Rabs e). { unfold vnorm, vdot; cbn. replace (e * e + 0 * 0 + 0 * 0 + 0 * 0) with (Rsqr e) by (unfold Rsqr; ring). apply sqrt_Rsqr_abs. }
      rewrite NV. assert (P2 : 0 < n2) by (rewrite EN; destruct (Rlt_dec 0 (f * k)); lra).
      assert (S : Rabs e * Rabs e = e * e) by (rewrite <- Rabs_mult; apply Rabs_right; nra). pose proof (Rabs_pos e).
      destruct (Rlt_dec (row_idx w * Rabs e) n2) as [Y|Y]; auto. exfalso. assert (n2 * n2 <= row_idx w * Rabs e * (row_idx w * Rabs e)) by nra.
      replace (row_idx w * Rabs e * (row_idx w * Rabs e)) with (row_idx w * row_idx w * (Rabs e * Rabs e)) in H1 by ring. rewrite S in H1. lra.
    - split; auto. assert (DN' : vdot (row_tilt w') (V4 0 0 k 0) = vz (row_tilt w') * k) by (unfold vdot; cbn; ring). rewrite DN' in RS'.
      assert (P2 : 0 < n2) by (rewrite EN; destruct (Rlt_dec 0 (f * k)); lra).
      unfold tangential in RT. rewrite DN' in RT. destruct (row_tilt w') as [p q s v]. cbn [vx vy vz vw] in *. vsimp. unfold vscale, vsub, vadd, vopp in RT. cbn in RT. injection RT as E1 E2 E3 E4.
      split; [|split].
      + rewrite E1. ring.
      + assert (n2 * q = 0) by lra. apply Rmult_integral in H0. destruct H0; lra.
      + assert (FK : 0 < f * k * (s * k)) by (destruct (Rlt_dec 0 (f * k)); nra). replace (f * k * (s * k)) with (f * s * (k * k)) in FK by ring. rewrite K2 in FK. lra.
  Qed.
End Turns.
