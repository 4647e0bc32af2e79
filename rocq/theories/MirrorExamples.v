(** * MirrorExamples: rays reflected at a parabolic, a spherical and a plane mirror inside an absorbing sphere *)
From Coq Require Import Reals List Bool ZArith Lra Lia Psatz.
Import ListNotations.
From Verif Require Import XR XRFacts Arr Lin LinFacts Ops OpsFacts SpecOptics Prim Csg Surf SpecGeom SpecTree CsgProps SurfFacts TreeFacts World SpecWorld Tracer SpecTrace
  TraceFacts3 TraceFacts4 TraceFacts5 TraceFacts7 TraceFacts9 TraceProps Components SpecComponents BuildFacts ComponentFacts ComponentFacts2 ComponentFacts3 ComponentOptics SpecMotion MotionFacts OpticsExamples
  SpecPrism PrismLaw PrismFacts PrismProps PrismExamples PrismExamples2 PrismExamples3 MirrorFacts MirrorFacts2 PlateFacts SpecMirrors MirrorTrace MirrorScene.
Open Scope R_scope.

Lemma offset_small : 0 < ray_offset_value < 1 / 100.
Proof. unfold ray_offset_value. lra. Qed.
Lemma atol_less : 0 < atol < 1 / 1000.
Proof. unfold atol. lra. Qed.
Lemma one_clear : clear 1.
Proof. right. rewrite Rabs_right by lra. pose proof atol_less. lra. Qed.

Section Dish.
  Variables (asort : list xr -> list nat) (i : Z) (b : box) (fa : surf) (ba : box) (fb : surf) (bb : box).
  Let s := Node i DIFFERENCE b (Leaf fa ba) (Leaf fb bb).
  Hypotheses (AS : argsort_ok asort) (TO : tree_ok s) (BC : boxes_current s).
  (** Within both parts all along: nothing is met *)
  Lemma dish_past : forall u q a1 b1 a2 b2, world_ray u -> good_ray s u -> 0 < q -> a1 <= 0 -> q < b1 -> a2 <= 0 -> q < b2 ->
    placed fa (ray_at u a1) -> placed fa (ray_at u b1) -> placed fb (ray_at u a2) -> placed fb (ray_at u b2) ->
    forall i k t sid, reports asort [s] u i k t sid -> q < t.
  Proof.
    intros u q a1 b1 a2 b2 W (_ & GA & GB) Q A1 B1 A2 B2 P1 P2 P3 P4 i' k t sid (s' & N & H1 & H2 & T). destruct TO as [OA OB].
    destruct i' as [|[|i']]; cbn in N; try discriminate. injection N as <-.
    assert (X : In (Fin t, sid) (combine (fst (shape_intersect asort s u)) (snd (shape_intersect asort s u)))).
    { clear - H1 H2. revert H1 H2. generalize (fst (shape_intersect asort s u)), (snd (shape_intersect asort s u)).
      induction k as [|k IH]; intros [|x xs] [|y ys]; simpl; try discriminate.
      - intros A B. inversion A; inversion B; auto.
      - intros A B. right. apply IH; auto. }
    destruct (Rlt_dec q t) as [L|L]; [exact L|exfalso].
    destruct (shape_leaf asort AS s u _ _ X) as [E|(f & F & I & H)]; [discriminate|].
    destruct F as [F|[F|[]]]; subst f.
    - apply (hits_past fa u OA W GA a1 b1 q P1 P2 A1 B1 Q t); auto. lra.
    - apply (hits_past fb u OB W GB a2 b2 q P3 P4 A2 B2 Q t); auto. lra.
  Qed.
  Lemma dish_hit : forall u q eps, world_ray u -> good_ray s u -> 0 < eps -> 0 < q ->
    (forall v, Rabs v <= eps -> placed fa (ray_at u (q + v))) -> placed fb (ray_at u q) -> (forall t, q < t -> ~ placed fb (ray_at u t)) -> placed fb (ray_at u 0) ->
    first_hit asort [s] u q (s_id fb).
  Proof.
    intros u q eps W G E Q NA PB NB P0.
    assert (PR : propagate asort [s] (Col u 0 100 (5 / 10) 1 0) = (Fin q, s_id fb)).
    { apply (dug_first asort AS i b fa ba fb bb (Col u 0 100 (5 / 10) 1 0) q eps); auto. exists 0. split; [lra|]. split; [exact P0|]. left. lra. }
    destruct (propagate_first asort AS [s] (Col u 0 100 (5 / 10) 1 0)) as [(X & _)|(t & sid & X & F)]; rewrite PR in X; [discriminate|]. injection X as <- <-. exact F.
  Qed.
End Dish.
Lemma abs_near : forall v e, Rabs v <= e -> - e <= v <= e.
Proof. intros v e H. pose proof (Rle_abs v). pose proof (Rle_abs (- v)). rewrite Rabs_Ropp in *. lra. Qed.

(** ** The parabolic mirror of focal length 1 *)
Lemma bowl_case : forall asort, argsort_ok asort -> forall P, built asort (parabolic_mirror 1 1 (Round 8) (0, 0) Mirror) P ->
  exists s w1 w2 w3, P s /\ reflected asort s mid (on_paraboloid 1 (Round 8) (0, 0)) w1 w2 /\ reflected asort s mid (on_paraboloid 1 (Round 8) (0, 0)) w2 w3 /\
    row_tilt w1 = mapply mid (V4 (-1) 0 0 0) /\ here (row_end w1) = pt 0 2 0 /\ here (row_end w2) = pt 0 (-2) 0 /\ row_tilt w2 = V4 0 (-1) 0 0.
Proof.
  intros asort AS P BU. pose proof offset_small as OFF. pose proof one_clear as C1. pose proof clear_0 as C0.
  assert (BS := built_both _ _ _ _ BU (built_both _ _ _ _ (para_part asort 1 1 (Round 8) (0, 0) AS ltac:(simpl; lra) ltac:(lra) ltac:(lra) ltac:(simpl; lra))
     (para_shape asort 1 1 (Round 8) (0, 0) Mirror AS ltac:(simpl; lra) ltac:(lra) ltac:(lra)))). clear BU.
  assert (FR : para_front 1 (Round 8) (0, 0) = 16).
  { unfold para_front, far_edge. cbn [fst snd]. rewrite Rmult_0_l, Rplus_0_l, sqrt_0. field. }
  assert (FR' : 1 / (4 * 1) * ((sqrt (fst (0, 0) * fst (0, 0) + snd (0, 0) * snd (0, 0)) + 8) * (sqrt (fst (0, 0) * fst (0, 0) + snd (0, 0) * snd (0, 0)) + 8)) = 16) by exact FR.
  assert (EO : parabolic_mirror 1 1 (Round 8) (0, 0) Mirror = Makes
    [CSurface (PCylinder 4 (- (1 + 16) / 2) ((1 + 16) / 2) true) Absorber; CMotion 0 (Move 0 0 0); CMotion 0 (op_move_z ((1 + 16) / 2 - 1)); CSurface (PParaboloid 1 (15 / 10 * 16)) Mirror;
     CCsg DIFFERENCE 0 1; CMotion 2 (op_move_z (- 1)); CMotion 2 (RotY 90 Deg); CMotion 2 (RotX 90 Deg)] 2).
  { unfold parabolic_mirror. cbv zeta. cbn [create_aperture fst snd] in FR' |- *. rewrite FR'. destruct (Req_EM_T 1 0) as [X|_]; [lra|]. cbn [turned app]. replace (8 / 2) with 4 by lra. reflexivity. }
  set (r := Ray (pt 5 2 0) (V4 (-1) 0 0 0)).
  destruct (ball_scene asort AS _ _ _ _ r EO BS) as (h & s & g & bx & t & (PS & PP & (p & Ep & E)) & TO & BC & GO & GP & GW & GM & GB & NW & PRO).
  { do 2 eexists. split.
    - cbn [map shift track track_call nth_error motion_matrix set_nth op_move_z app prim_init Nat.add].
      replace (rleb 1 0) with false by (symmetry; apply rleb_false; lra). replace (rleb (15 / 10 * 16) 0) with false by (symmetry; apply rleb_false; lra).
      cbn [orb map shift track track_call nth_error motion_matrix set_nth op_move_z app prim_init Nat.add Nat.eqb]. reflexivity.
    - split; reflexivity. }
  { cbn [map shift]. repeat constructor; cbn [fit_call prim_ok capped optical]; auto; lra. }
  1-2: reflexivity.
  { unfold unit, vdot; cbn. ring. }
  clear EO FR'. rewrite FR in *.
  destruct (erase_diff _ _ _ E) as (i & b & l & rr & -> & El & Er). pose proof TO as [TOl TOr].
  destruct (erase_leaf _ _ _ _ _ _ _ El TOl) as (fa & ba & -> & TA & OA). destruct (erase_leaf _ _ _ _ _ _ _ Er TOr) as (fb & bb & -> & TB & OB).
  destruct PP as (fa' & fb' & SI & _ & MA & NO). cbn in SI. injection SI as <- <-.
  set (s := Node i DIFFERENCE b (Leaf fa ba) (Leaf fb bb)) in *.
  assert (PA : forall x y, placed fa (pt x y 0) <-> y * y <= 16 /\ -2 <= x <= 15).
  { intros x y. rewrite (turned_placed _ _ _ _ _ _ _ x y 0 OA TA). rewrite (aperture_solid (Round 8) (1 + 16) p (0, 0) y 0 _ ltac:(simpl; lra) ltac:(lra) Ep). unfold in_aperture; cbn [fst snd]. split; intros; lra. }
  assert (PB : forall x y, placed fb (pt x y 0) <-> y * y <= 4 * (x + 1) /\ -1 <= x <= 23).
  { intros x y. rewrite (turned_placed _ _ _ _ _ _ _ x y 0 OB TB). unfold solid, pt; cbn [vx vy vz]. rewrite !Rminus_0_r. split; intros; lra. }
  assert (GD : forall x y dx dy, clear dx -> clear dy -> clear (dy * dy) -> clear (4 * dx) -> good_ray s (Ray (pt x y 0) (V4 dx dy 0 0))).
  { intros x y dx dy K1 K2 K3 K4. split; [|split].
    - unfold clear_dir; cbn [direction vx vy vz]. auto.
    - cbn [good_ray]. destruct TA as (-> & _ & -> & _). eapply aperture_good; [exact Ep|]. unfold clear_towards; cbn [vx vy vz]. rewrite Rmult_0_r, Rplus_0_r. auto.
    - cbn [good_ray]. destruct TB as (-> & _ & -> & _). unfold good_local, clear_ray, ray_map; cbn [direction origin]. rewrite tobj_vec. cbn [vx vy vz]. rewrite Rmult_0_r, Rplus_0_r, Rmult_1_r. auto. }
  assert (CN : forall k, k = -1 \/ k = 1 \/ k = 4 \/ k = -4 -> clear k).
  { intros k K. right. pose proof atol_less. destruct K as [-> | [-> | [-> | ->]]]; unfold Rabs; destruct (Rcase_abs _); lra. }
  assert (RY : forall x y dx dy u, ray_at (Ray (pt x y 0) (V4 dx dy 0 0)) u = pt (x + u * dx) (y + u * dy) 0) by (intros; rewrite ray_pt; f_equal; ring).
  assert (WR : forall x y dx dy, dx * dx + dy * dy = 1 -> world_ray (Ray (pt x y 0) (V4 dx dy 0 0))) by (intros; apply unit_moving; lra).
  assert (SHELL : forall x y, placed g (pt x y 0) <-> x * x + y * y <= 81) by (intros x y; rewrite (shell_at g GO GP GW); split; lra).
  (* the first leg *)
  assert (H1 : first_hit asort [s; Leaf g bx] r 5 (s_id fb)).
  { apply (with_shell asort s g bx GO GP r 5 (s_id fb) 0 6); [apply WR; ring| |lra|lra|unfold r; rewrite RY; apply SHELL; lra|unfold r; rewrite RY; apply SHELL; lra].
    apply (dish_hit asort i b fa ba fb bb AS TO BC r 5 1); try lra; unfold r.
    - apply WR. ring.
    - apply GD; auto 6. rewrite Rmult_0_l. auto. apply CN. lra.
    - intros v V. rewrite RY. apply PA. apply abs_near in V. lra.
    - rewrite RY. apply PB. lra.
    - intros u U. rewrite RY, PB. lra.
    - rewrite RY. apply PB. lra. }
  destruct (first_at asort h t 2 s g bx r AS NW PRO ltac:(unfold unit, vdot; cbn; ring) 5 (s_id fb) eq_refl H1) as (t' & w1 & T & R1).
  assert (E1 : ray_at r 5 = pt 0 2 0) by (unfold r; rewrite RY; f_equal; lra). rewrite E1 in R1. cbn [r direction] in R1.
  set (N := sqrt 8). assert (NN : N * N = 8) by (apply sqrt_sqrt; lra). assert (N0 : 0 < N) by (apply sqrt_lt_R0; lra).
  assert (NORM : forall y, y * y = 4 -> world_normal fb (pt 0 y 0) = Some (V4 (2 / N) (- y / N) 0 0) /\ unit (V4 (2 / N) (- y / N) 0 0)).
  { intros y Y. destruct (NO (pt 0 y 0)) as (NW' & NU & _).
    - exists y, 0. split; [unfold in_open_aperture; cbn [fst snd]; lra|]. f_equal. lra.
    - cbn [pt vx vy vz] in NW', NU. replace (y * y + 0 * 0 + 4 * (1 * 1)) with 8 in NW', NU by lra. fold N in NW', NU.
      replace (V4 (2 / N) (- y / N) 0 0) with (V4 (2 * 1 / N) (- y / N) (- 0 / N) 0) by (f_equal; field; lra). auto. }
  destruct (NORM 2 ltac:(lra)) as (WN1 & U1). destruct (NORM (-2) ltac:(lra)) as (WN2 & U2).
  assert (IF : In fb (flat_map surface_ids [s; Leaf g bx])) by (cbn; auto).
  (* the second, across the bowl *)
  assert (H2 : first_hit asort [s; Leaf g bx] (Ray (vadd (pt 0 2 0) (vscale ray_offset_value (V4 0 (-1) 0 0))) (V4 0 (-1) 0 0)) (4 - ray_offset_value) (s_id fb)).
  { replace (vadd (pt 0 2 0) (vscale ray_offset_value (V4 0 (-1) 0 0))) with (pt 0 (2 - ray_offset_value) 0) by (unfold pt, vadd, vscale; cbn [vx vy vz vw]; f_equal; ring).
    set (o := ray_offset_value) in *.
    apply (with_shell asort s g bx GO GP _ (4 - o) (s_id fb) 0 5); [apply WR; ring| |lra|lra|rewrite RY; apply SHELL; nra|rewrite RY; apply SHELL; nra].
    apply (dish_hit asort i b fa ba fb bb AS TO BC _ (4 - o) 1); try lra.
    - apply WR. ring.
    - apply GD; auto 6. apply CN. lra. rewrite Rmult_0_r. auto.
    - intros v V. rewrite RY. apply PA. apply abs_near in V. nra.
    - rewrite RY. apply PB. nra.
    - intros u U. rewrite RY, PB. nra.
    - rewrite RY. apply PB. nra. }
  destruct (next_at asort h t 2 s g bx r AS NW PRO t' 0 w1 _ _ _ fb _ (4 - ray_offset_value) (V4 0 (-1) 0 0) (s_id fb) T R1 ltac:(lia) IF eq_refl MA WN1 U1) as (w2 & R2); [|reflexivity|reflexivity|exact H2|].
  { unfold vsub, vadd, vopp, vscale, vdot; cbn [vx vy vz vw]. f_equal; [| |ring|ring].
    - transitivity (-1 + 8 / (N * N)); [rewrite NN; lra|field; lra].
    - transitivity (- (8 / (N * N))); [rewrite NN; lra|field; lra]. }
  replace (vadd (pt 0 2 0) (vscale (ray_offset_value + (4 - ray_offset_value)) (V4 0 (-1) 0 0))) with (pt 0 (-2) 0) in R2 by (unfold pt, vadd, vscale; cbn [vx vy vz vw]; f_equal; ring).
  (* the third, out to the sphere *)
  set (Q := sqrt 77). assert (QQ : Q * Q = 77) by (apply sqrt_sqrt; lra). assert (Q0 : 0 < Q) by (apply sqrt_lt_R0; lra). assert (Q9 : 8 < Q < 9) by nra.
  assert (H3 : first_hit asort [s; Leaf g bx] (Ray (vadd (pt 0 (-2) 0) (vscale ray_offset_value (V4 1 0 0 0))) (V4 1 0 0 0)) (Q - ray_offset_value) (s_id g)).
  { replace (vadd (pt 0 (-2) 0) (vscale ray_offset_value (V4 1 0 0 0))) with (pt ray_offset_value (-2) 0) by (unfold pt, vadd, vscale; cbn [vx vy vz vw]; f_equal; ring).
    set (o := ray_offset_value) in *.
    apply (shell_only asort s g bx GO GP); try lra.
    - apply WR. ring.
    - right. apply (dish_past asort i b fa ba fb bb AS TO _ (Q - o) 0 10 0 10); try lra.
      + apply WR. ring.
      + apply GD; auto 6. rewrite Rmult_0_l. auto. apply CN. lra.
      + rewrite RY. apply PA. lra.
      + rewrite RY. apply PA. lra.
      + rewrite RY. apply PB. lra.
      + rewrite RY. apply PB. lra.
    - rewrite RY. apply SHELL. nra.
    - rewrite RY. apply SHELL. nra.
    - intros u U. rewrite RY, SHELL. nra. }
  destruct (next_at asort h t 2 s g bx r AS NW PRO t' 1 w2 _ _ _ fb _ (Q - ray_offset_value) (V4 1 0 0 0) (s_id g) T R2 ltac:(lia) IF eq_refl MA WN2 U2) as (w3 & R3); [|reflexivity|reflexivity|exact H3|].
  { unfold vsub, vadd, vopp, vscale, vdot; cbn [vx vy vz vw]. f_equal; [| |ring|ring].
    - transitivity (8 / (N * N)); [rewrite NN; lra|field; lra].
    - transitivity (-1 + 8 / (N * N)); [rewrite NN; lra|field; lra]. }
  exists s, w1, w2, w3. destruct R1 as (J1 & T1 & P1 & S1 & _), R2 as (J2 & T2 & P2 & S2 & _), R3 as (J3 & _).
  split; [exact PS|]. split; [|split; [|split; [|auto]]].
  - exists (beam r), h, t, [s; Leaf g bx], 22%nat, t', s, 0%nat, 0%nat, [fa], fb. do 2 (split; [assumption|]). split; [left; reflexivity|].
    split; [apply moved_mid; intros f [<- | [<- | []]]; auto|]. do 2 (split; [assumption|]). split; [reflexivity|]. split; [exact S1|]. exists (pt 0 2 0). rewrite mid_at. split; [|exact P1].
    exists 2, 0. split; [unfold in_open_aperture; cbn [fst snd]; lra|f_equal; lra].
  - exists (beam r), h, t, [s; Leaf g bx], 22%nat, t', s, 0%nat, 1%nat, [fa], fb. do 2 (split; [assumption|]). split; [left; reflexivity|].
    split; [apply moved_mid; intros f [<- | [<- | []]]; auto|]. do 2 (split; [assumption|]). split; [reflexivity|]. split; [exact S2|]. exists (pt 0 (-2) 0). rewrite mid_at. split; [|exact P2].
    exists (-2), 0. split; [unfold in_open_aperture; cbn [fst snd]; lra|f_equal; lra].
  - rewrite mid_at. exact T1.
Qed.

(** ** The spherical mirror of radius 25 *)
Lemma round_case : forall asort, argsort_ok asort -> forall dx dy ex ey q, dx * dx + dy * dy = 1 -> ex * ex + ey * ey = 1 -> -1 <= dx <= - (1 / 2) -> clear dx -> clear dy -> clear (dy * dy) -> clear ex -> clear ey -> clear (ey * ey) ->
  0 < q <= 5 -> (1 - q * dx) * (1 - q * dx) + (7 - q * dy) * (7 - q * dy) <= 81 -> 20 <= -24 * dx + 7 * dy <= 25 ->
  V4 ex ey 0 0 = vsub (V4 dx dy 0 0) (vscale (2 * vdot (V4 dx dy 0 0) (V4 (24 / 25) (- (7 / 25)) 0 0)) (V4 (24 / 25) (- (7 / 25)) 0 0)) ->
  0 <= ex <= 1 -> -1 <= ey <= 1 -> -3 <= ex + 7 * ey <= 0 ->
  forall P, built asort (spherical_mirror (Fin 25) 1 (Round 50) (0, 0) Mirror) P ->
  exists s w1 w2, P s /\ reflected asort s mid (on_sphere 25 (Round 50) (0, 0)) w1 w2 /\ row_tilt w1 = V4 dx dy 0 0 /\ here (row_end w1) = pt 1 7 0.
Proof.
  intros asort AS dx dy ex ey q DU EU DX KX KY KY2 LX LY LY2 Q05 ST DA EE EX EY EB P BU. pose proof offset_small as OFF. pose proof one_clear as C1. pose proof clear_0 as C0.
  assert (S0 : sqrt (fst (0, 0) * fst (0, 0) + snd (0, 0) * snd (0, 0)) = 0) by (cbn [fst snd]; rewrite Rmult_0_l, Rplus_0_l; apply sqrt_0).
  assert (R25 : Rabs 25 = 25) by (apply Rabs_right; lra).
  assert (RE : sqrt (fst (0, 0) * fst (0, 0) + snd (0, 0) * snd (0, 0)) + SpecComponents.reach (Round 50) <= Rabs 25) by (rewrite S0, R25; simpl; lra).
  assert (BS := built_both _ _ _ _ BU (built_both _ _ _ _ (sphere_part asort 25 1 (Round 50) (0, 0) AS ltac:(simpl; lra) ltac:(lra) ltac:(lra) RE)
     (spherical_shape asort 25 1 (Round 50) (0, 0) Mirror AS ltac:(simpl; lra) ltac:(lra) ltac:(lra) RE))). clear BU.
  assert (LT : rltb 0 25 = true) by (apply rltb_true; lra).
  assert (FR : sph_front 25 (Round 50) (0, 0) = 25).
  { unfold sph_front. rewrite S0, R25. cbn [SpecComponents.reach]. replace (25 * 25 - (0 + 50 / 2) * (0 + 50 / 2)) with 0 by lra. rewrite sqrt_0. lra. }
  assert (EO : spherical_mirror (Fin 25) 1 (Round 50) (0, 0) Mirror = Makes
    [CSurface (PCylinder 25 (- (1 + 25) / 2) ((1 + 25) / 2) true) Absorber; CMotion 0 (Move 0 0 0); CSurface (PSphere 25) Mirror; CMotion 1 (op_move_z 25);
     CMotion 0 (op_move_z ((25 + 1) / 2 - 1)); CCsg DIFFERENCE 0 1; CMotion 2 (RotY 90 Deg); CMotion 2 (RotX 90 Deg)] 2).
  { unfold spherical_mirror. cbv zeta. rewrite LT, R25, S0. cbn [create_aperture max_height]. unfold np_sqrt.
    replace (25 * 25 - (0 + 50 / 2) * (0 + 50 / 2)) with 0 by lra. replace (rleb 0 0) with true by (symmetry; apply rleb_true; lra). rewrite sqrt_0, Rminus_0_r.
    destruct (Req_EM_T 25 0) as [X|_]; [lra|]. cbn [turned app fst snd]. replace (50 / 2) with 25 by lra. reflexivity. }
  set (r := Ray (pt (1 - q * dx) (7 - q * dy) 0) (V4 dx dy 0 0)).
  assert (UR : unit (direction r)) by (unfold unit, vdot, r; cbn [direction vx vy vz vw]; lra).
  destruct (ball_scene asort AS _ _ _ _ r EO BS) as (h & s & g & bx & t & (PS & PP & (p & Ep & E)) & TO & BC & GO & GP & GW & GM & GB & NW & PRO).
  { do 2 eexists. split.
    - cbn [map shift track track_call nth_error motion_matrix set_nth op_move_z app prim_init Nat.add Nat.eqb]. reflexivity.
    - split; reflexivity. }
  { cbn [map shift]. repeat constructor; cbn [fit_call prim_ok capped optical]; auto; lra. }
  1-2: reflexivity.
  { exact UR. }
  clear EO. unfold sph_mid in E. rewrite FR, LT in E. rewrite FR in Ep. rewrite R25 in *.
  destruct (erase_diff _ _ _ E) as (i & b & l & rr & -> & El & Er). pose proof TO as [TOl TOr].
  destruct (erase_leaf _ _ _ _ _ _ _ El TOl) as (fa & ba & -> & TA & OA). destruct (erase_leaf _ _ _ _ _ _ _ Er TOr) as (fb & bb & -> & TB & OB).
  destruct PP as (fa' & fb' & SI & _ & MA & NO). cbn in SI. injection SI as <- <-.
  set (s := Node i DIFFERENCE b (Leaf fa ba) (Leaf fb bb)) in *.
  assert (PA : forall x y, placed fa (pt x y 0) <-> y * y <= 625 /\ -1 <= x <= 25).
  { intros x y. rewrite (turned_placed _ _ _ _ _ _ _ x y 0 OA TA). rewrite (aperture_solid (Round 50) (1 + 25) p (0, 0) y 0 _ ltac:(simpl; lra) ltac:(lra) Ep). unfold in_aperture; cbn [fst snd]. split; intros; lra. }
  assert (PB : forall x y, placed fb (pt x y 0) <-> (x - 25) * (x - 25) + y * y <= 625).
  { intros x y. rewrite (turned_placed _ _ _ _ _ _ _ x y 0 OB TB). unfold solid, pt; cbn [vx vy vz]. rewrite !Rminus_0_r. split; intros; lra. }
  assert (GD : forall x y ax ay, clear ax -> clear ay -> clear (ay * ay) -> good_ray s (Ray (pt x y 0) (V4 ax ay 0 0))).
  { intros x y ax ay K1 K2 K3. split; [|split].
    - unfold clear_dir; cbn [direction vx vy vz]. auto.
    - cbn [good_ray]. destruct TA as (-> & _ & -> & _). eapply aperture_good; [exact Ep|]. unfold clear_towards; cbn [vx vy vz]. rewrite Rmult_0_r, Rplus_0_r. auto.
    - cbn [good_ray]. destruct TB as (-> & _ & -> & _). split; exact Logic.I. }
  assert (RY : forall x y dx dy u, ray_at (Ray (pt x y 0) (V4 dx dy 0 0)) u = pt (x + u * dx) (y + u * dy) 0) by (intros; rewrite ray_pt; f_equal; ring).
  assert (WR : forall x y dx dy, dx * dx + dy * dy = 1 -> world_ray (Ray (pt x y 0) (V4 dx dy 0 0))) by (intros; apply unit_moving; lra).
  assert (SHELL : forall x y, placed g (pt x y 0) <-> x * x + y * y <= 81) by (intros x y; rewrite (shell_at g GO GP GW); split; lra).
  set (A := -24 * dx + 7 * dy) in *.
  assert (DY : -1 <= dy <= 1) by (split; nra).
  assert (RU : forall u, ray_at r u = pt (1 + (u - q) * dx) (7 + (u - q) * dy) 0) by (intro u; unfold r; rewrite RY; f_equal; ring).
  assert (DB : forall v, (1 + v * dx - 25) * (1 + v * dx - 25) + (7 + v * dy) * (7 + v * dy) = 625 + 2 * v * A + v * v).
  { intro v. transitivity (625 + 2 * v * A + v * v * (dx * dx + dy * dy)); [unfold A; ring|rewrite DU; ring]. }
  assert (DS : forall v, (1 + v * dx) * (1 + v * dx) + (7 + v * dy) * (7 + v * dy) = 50 + 2 * v * (dx + 7 * dy) + v * v).
  { intro v. transitivity (50 + 2 * v * (dx + 7 * dy) + v * v * (dx * dx + dy * dy)); [ring|rewrite DU; ring]. }
  assert (H1 : first_hit asort [s; Leaf g bx] r q (s_id fb)).
  { apply (with_shell asort s g bx GO GP r q (s_id fb) 0 (q + 1)); [apply WR; exact DU| |lra|lra| |].
    - apply (dish_hit asort i b fa ba fb bb AS TO BC r q 1); try lra.
      + apply WR. exact DU.
      + apply GD; auto.
      + intros v V. rewrite RU. apply PA. apply abs_near in V. replace (q + v - q) with v by ring. split; nra.
      + rewrite RU. apply PB. rewrite DB. nra.
      + intros u U. rewrite RU, PB, DB. nra.
      + rewrite RU. apply PB. rewrite DB. nra.
    - rewrite RU. apply SHELL. rewrite <- (Rmult_opp_opp (1 + _)), <- (Rmult_opp_opp (7 + _)). nra.
    - rewrite RU. apply SHELL. rewrite DS. nra. }
  destruct (first_at asort h t 2 s g bx r AS NW PRO UR q (s_id fb) eq_refl H1) as (t' & w1 & T & R1).
  assert (E1 : ray_at r q = pt 1 7 0) by (rewrite RU; f_equal; ring). rewrite E1 in R1. cbn [r direction] in R1.
  assert (SAG : sag (Fin 25) (7 * 7 + 0 * 0) = 1).
  { unfold sag. rewrite LT. replace (25 * 25 - (7 * 7 + 0 * 0)) with (24 * 24) by lra. rewrite sqrt_square by lra. lra. }
  assert (ON : on_sphere 25 (Round 50) (0, 0) (pt 1 7 0)).
  { exists 7, 0. split; [unfold in_open_aperture; cbn [fst snd]; lra|]. rewrite SAG. reflexivity. }
  destruct (NO _ ON) as (WN & NU & _). cbn [pt vx vy vz] in WN, NU.
  assert (NE : vscale (/ 25) (V4 (25 - 1) (- (7)) (- 0) 0) = V4 (24 / 25) (- (7 / 25)) 0 0) by (unfold vscale; cbn [vx vy vz vw]; f_equal; lra).
  rewrite NE in WN, NU.
  assert (IF : In fb (flat_map surface_ids [s; Leaf g bx])) by (cbn; auto).
  assert (EA : -24 * ex + 7 * ey = - A).
  { unfold vsub, vadd, vopp, vscale, vdot in EE. cbn [vx vy vz vw] in EE. injection EE as -> -> _. unfold A. lra. }
  set (B := ex + 7 * ey) in *.
  set (Q := - B + sqrt (B * B + 31)). assert (QQ : (Q + B) * (Q + B) = B * B + 31) by (unfold Q; replace (- B + sqrt (B * B + 31) + B) with (sqrt (B * B + 31)) by ring; apply sqrt_sqrt; nra).
  assert (QP : 0 < Q + B) by (unfold Q; replace (- B + sqrt (B * B + 31) + B) with (sqrt (B * B + 31)) by ring; apply sqrt_lt_R0; nra).
  assert (Q9 : 5 < Q < 10) by (split; nra).
  set (o := ray_offset_value) in *.
  assert (OE : vadd (pt 1 7 0) (vscale o (V4 ex ey 0 0)) = pt (1 + o * ex) (7 + o * ey) 0) by (unfold pt, vadd, vscale; cbn [vx vy vz vw]; f_equal; ring).
  assert (RU2 : forall u, ray_at (Ray (pt (1 + o * ex) (7 + o * ey) 0) (V4 ex ey 0 0)) u = pt (1 + (u + o) * ex) (7 + (u + o) * ey) 0) by (intro u; rewrite RY; f_equal; ring).
  assert (DB2 : forall v, (1 + v * ex - 25) * (1 + v * ex - 25) + (7 + v * ey) * (7 + v * ey) = 625 - 2 * v * A + v * v).
  { intro v. transitivity (625 + 2 * v * (-24 * ex + 7 * ey) + v * v * (ex * ex + ey * ey)); [ring|rewrite EU, EA; ring]. }
  assert (DS2 : forall v, (1 + v * ex) * (1 + v * ex) + (7 + v * ey) * (7 + v * ey) = 50 + 2 * v * B + v * v).
  { intro v. transitivity (50 + 2 * v * B + v * v * (ex * ex + ey * ey)); [unfold B; ring|rewrite EU; ring]. }
  assert (H3 : first_hit asort [s; Leaf g bx] (Ray (vadd (pt 1 7 0) (vscale o (V4 ex ey 0 0))) (V4 ex ey 0 0)) (Q - o) (s_id g)).
  { rewrite OE. apply (shell_only asort s g bx GO GP); try lra.
    - apply WR. exact EU.
    - right. apply (dish_past asort i b fa ba fb bb AS TO _ (Q - o) 0 10 0 10); try lra.
      + apply WR. exact EU.
      + apply GD; auto.
      + rewrite RU2. apply PA. split; nra.
      + rewrite RU2. apply PA. split; nra.
      + rewrite RU2. apply PB. rewrite DB2. nra.
      + rewrite RU2. apply PB. rewrite DB2. nra.
    - rewrite RU2. apply SHELL. rewrite DS2. nra.
    - rewrite RU2. apply SHELL. rewrite DS2. replace (Q - o + o) with Q by ring. nra.
    - intros u U. rewrite RU2, SHELL, DS2. intro X. assert (V : Q < u + o) by lra. set (v := u + o) in *. nra. }
  destruct (next_at asort h t 2 s g bx r AS NW PRO t' 0 w1 _ _ _ fb _ (Q - o) (V4 ex ey 0 0) (s_id g) T R1 ltac:(lia) IF eq_refl MA WN NU EE eq_refl eq_refl H3) as (w2 & R2).
  exists s, w1, w2. destruct R1 as (J1 & T1 & P1 & S1 & _), R2 as (J2 & _).
  split; [exact PS|]. split; [|split; [exact T1|exact P1]].
  exists (beam r), h, t, [s; Leaf g bx], 22%nat, t', s, 0%nat, 0%nat, [fa], fb. do 2 (split; [assumption|]). split; [left; reflexivity|].
  split; [apply moved_mid; intros f [<- | [<- | []]]; auto|]. do 2 (split; [assumption|]). split; [reflexivity|]. split; [exact S1|]. exists (pt 1 7 0). rewrite mid_at. split; [exact ON|exact P1].
Qed.

Lemma clear_of : forall x, 1 / 100 <= Rabs x -> clear x.
Proof. intros x H. right. pose proof atol_less. lra. Qed.
Lemma round_centre : forall asort, argsort_ok asort -> forall P, built asort (spherical_mirror (Fin 25) 1 (Round 50) (0, 0) Mirror) P ->
  exists s w w', P s /\ reflected asort s mid (on_sphere 25 (Round 50) (0, 0)) w w' /\ exists c, here (row_end w) = vadd (mapply mid (pt 25 0 0)) (vscale c (row_tilt w)).
Proof.
  intros asort AS P BU.
  destruct (round_case asort AS (- (24 / 25)) (7 / 25) (24 / 25) (- (7 / 25)) 1) with (P := P) as (s & w1 & w2 & PS & R & T & E); auto; try lra;
    try (apply clear_of; unfold Rabs; destruct (Rcase_abs _); lra).
  - unfold vsub, vadd, vopp, vscale, vdot; cbn [vx vy vz vw]. f_equal; lra.
  - exists s, w1, w2. split; auto. split; auto. exists 25. rewrite E, T, mid_at. unfold pt, vadd, vscale; cbn [vx vy vz vw]. f_equal; lra.
Qed.
Lemma round_parallel : forall asort, argsort_ok asort -> forall P, built asort (spherical_mirror (Fin 25) 1 (Round 50) (0, 0) Mirror) P ->
  exists s w w', P s /\ reflected asort s mid (on_sphere 25 (Round 50) (0, 0)) w w' /\ row_tilt w = mapply mid (V4 (- (25 / Rabs 25)) 0 0 0) /\ here (row_end w) = pt 1 7 0.
Proof.
  intros asort AS P BU.
  destruct (round_case asort AS (-1) 0 (527 / 625) (- (336 / 625)) 4) with (P := P) as (s & w1 & w2 & PS & R & T & E); auto; try lra;
    try (apply clear_of; unfold Rabs; destruct (Rcase_abs _); lra); try apply clear_0.
  - rewrite Rmult_0_l. apply clear_0.
  - unfold vsub, vadd, vopp, vscale, vdot; cbn [vx vy vz vw]. f_equal; lra.
  - exists s, w1, w2. split; auto. split; auto. split; [|exact E]. rewrite T, mid_at, Rabs_right by lra. f_equal. lra.
Qed.

(** ** A plane mirror *)
Lemma plate_case : forall asort, argsort_ok asort -> forall P, built asort (plane_mirror 1 (Round 8) (0, 0) Mirror) P ->
  exists s w w', P s /\ reflected asort s mid (on_plate (1 / 2) (Round 8) (0, 0)) w w' /\ here (row_end w) = vadd (mapply mid (pt (9 / 2) 3 0)) (vscale 5 (row_tilt w)).
Proof.
  intros asort AS P BU. pose proof offset_small as OFF. pose proof one_clear as C1. pose proof clear_0 as C0.
  assert (BS := built_both _ _ _ _ BU (plane_shape asort 1 (Round 8) (0, 0) Mirror AS ltac:(simpl; lra) ltac:(lra))). clear BU.
  assert (EO : plane_mirror 1 (Round 8) (0, 0) Mirror = Makes
    [CSurface (PCylinder (8 / 2) (- (1) / 2) (1 / 2) true) Mirror; CMotion 0 (Move 0 0 0); CMotion 0 (RotY 90 Deg); CMotion 0 (RotX 90 Deg)] 0) by reflexivity.
  set (r := Ray (pt (9 / 2) 3 0) (V4 (- (4 / 5)) (- (3 / 5)) 0 0)).
  assert (UR : unit (direction r)) by (unfold unit, vdot, r; cbn [direction vx vy vz vw]; lra).
  destruct (ball_scene asort AS _ _ _ _ r EO BS) as (h & s & g & bx & t & (PS & (p & Ep & E)) & TO & BC & GO & GP & GW & GM & GB & NW & PRO).
  { do 2 eexists. split.
    - cbn [map shift track track_call nth_error motion_matrix set_nth op_move_z app prim_init Nat.add Nat.eqb]. reflexivity.
    - split; reflexivity. }
  { cbn [map shift]. repeat constructor; cbn [fit_call prim_ok capped optical]; auto; lra. }
  1-2: reflexivity.
  { exact UR. }
  clear EO. destruct (erase_leaf _ _ _ _ _ _ _ E TO) as (f & b & -> & TF & OF). pose proof TF as (_ & MA & _).
  assert (PA : forall x y, placed f (pt x y 0) <-> y * y <= 16 /\ - (1 / 2) <= x <= 1 / 2).
  { intros x y. rewrite (turned_placed _ _ _ _ _ _ _ x y 0 OF TF). rewrite (aperture_solid (Round 8) 1 p (0, 0) y 0 _ ltac:(simpl; lra) ltac:(lra) Ep). unfold in_aperture; cbn [fst snd]. split; intros; lra. }
  assert (GD : forall x y ax ay, clear ax -> clear ay -> clear (ay * ay) -> good_local (s_prim f) (ray_map (s_obj f) (Ray (pt x y 0) (V4 ax ay 0 0)))).
  { intros x y ax ay K1 K2 K3. destruct TF as (-> & _ & -> & _). eapply aperture_good; [exact Ep|]. unfold clear_towards; cbn [vx vy vz]. rewrite Rmult_0_r, Rplus_0_r. auto. }
  assert (RY : forall x y dx dy u, ray_at (Ray (pt x y 0) (V4 dx dy 0 0)) u = pt (x + u * dx) (y + u * dy) 0) by (intros; rewrite ray_pt; f_equal; ring).
  assert (WR : forall x y dx dy, dx * dx + dy * dy = 1 -> world_ray (Ray (pt x y 0) (V4 dx dy 0 0))) by (intros; apply unit_moving; lra).
  assert (SHELL : forall x y, placed g (pt x y 0) <-> x * x + y * y <= 81) by (intros x y; rewrite (shell_at g GO GP GW); split; lra).
  assert (RU : forall u, ray_at r u = pt (9 / 2 - 4 / 5 * u) (3 - 3 / 5 * u) 0) by (intro u; unfold r; rewrite RY; f_equal; ring).
  assert (W1 : world_ray r) by (apply WR; lra).
  assert (G1 : good_local (s_prim f) (ray_map (s_obj f) r)) by (apply GD; apply clear_of; unfold Rabs; destruct (Rcase_abs _); lra).
  destruct (hits_chord f r OF W1 G1 5 6) as (t0 & t1 & HE & L0 & L1 & PL); [rewrite RU; apply PA; lra|rewrite RU; apply PA; lra|lra|].
  assert (T0 : t0 = 5). { destruct (Req_dec t0 5); auto. exfalso. assert (X : placed f (ray_at r t0)) by (apply PL; lra). rewrite RU in X. apply PA in X. lra. } subst t0.
  assert (H1 : first_hit asort [Leaf f b; Leaf g bx] r 5 (s_id f)).
  { apply (with_shell asort (Leaf f b) g bx GO GP r 5 (s_id f) 0 6); [exact W1| |lra|lra|rewrite RU; apply SHELL; lra|rewrite RU; apply SHELL; lra].
    assert (PR : propagate asort [Leaf f b] (Col r 0 100 (5 / 10) 1 0) = (Fin 5, s_id f)).
    { apply (leaf_first asort AS f b (Col r 0 100 (5 / 10) 1 0) 5); auto; cbn [c_ray]; try lra; rewrite HE; [left; reflexivity|].
      intros t' [X|[X|[]]] _; injection X as <-; lra. }
    destruct (propagate_first asort AS [Leaf f b] (Col r 0 100 (5 / 10) 1 0)) as [(X & _)|(t' & sid & X & F)]; rewrite PR in X; [discriminate|]. injection X as <- <-. exact F. }
  destruct (first_at asort h t 0 (Leaf f b) g bx r AS NW PRO UR 5 (s_id f) eq_refl H1) as (t' & w1 & T & R1).
  assert (E1 : ray_at r 5 = pt (1 / 2) 0 0) by (rewrite RU; f_equal; lra). rewrite E1 in R1. cbn [r direction] in R1.
  assert (WI : well_inside (Round 8) (0, 0) 0 0) by (unfold well_inside, in_open_aperture; cbn [fst snd]; lra).
  pose proof (plate_normal f p Mirror (Round 8) (0, 0) 1 ltac:(simpl; lra) ltac:(lra) Ep TF 0 0 1 ltac:(auto) ltac:(lra) WI) as WN. rewrite Rmult_1_l in WN.
  assert (NU : unit (V4 1 0 0 0)) by (unfold unit, vdot; cbn [vx vy vz vw]; ring).
  assert (IF : In f (flat_map surface_ids [Leaf f b; Leaf g bx])) by (cbn; auto).
  set (o := ray_offset_value) in *. set (d := V4 (4 / 5) (- (3 / 5)) 0 0).
  set (Q := - (4 / 10) + sqrt (8091 / 100)). assert (QQ : (Q + 4 / 10) * (Q + 4 / 10) = 8091 / 100) by (unfold Q; replace (- (4 / 10) + sqrt (8091 / 100) + 4 / 10) with (sqrt (8091 / 100)) by ring; apply sqrt_sqrt; lra).
  assert (QP : 0 < Q + 4 / 10) by (unfold Q; replace (- (4 / 10) + sqrt (8091 / 100) + 4 / 10) with (sqrt (8091 / 100)) by ring; apply sqrt_lt_R0; lra).
  assert (Q9 : 5 < Q < 10) by (split; nra).
  assert (OE : vadd (pt (1 / 2) 0 0) (vscale o d) = pt (1 / 2 + o * (4 / 5)) (o * - (3 / 5)) 0) by (unfold d, pt, vadd, vscale; cbn [vx vy vz vw]; f_equal; ring).
  assert (RU2 : forall u, ray_at (Ray (pt (1 / 2 + o * (4 / 5)) (o * - (3 / 5)) 0) d) u = pt (1 / 2 + (u + o) * (4 / 5)) ((u + o) * - (3 / 5)) 0) by (intro u; unfold d; rewrite RY; f_equal; ring).
  assert (W2 : world_ray (Ray (pt (1 / 2 + o * (4 / 5)) (o * - (3 / 5)) 0) d)) by (apply WR; lra).
  assert (G2 : good_local (s_prim f) (ray_map (s_obj f) (Ray (pt (1 / 2 + o * (4 / 5)) (o * - (3 / 5)) 0) d))) by (apply GD; apply clear_of; unfold Rabs; destruct (Rcase_abs _); lra).
  assert (H3 : first_hit asort [Leaf f b; Leaf g bx] (Ray (vadd (pt (1 / 2) 0 0) (vscale o d)) d) (Q - o) (s_id g)).
  { rewrite OE. apply (shell_only asort (Leaf f b) g bx GO GP); try lra.
    - exact W2.
    - right. intros i' k u sid (s' & N & X1 & X2 & U). destruct i' as [|[|i']]; cbn in N; try discriminate. injection N as <-. cbn [shape_intersect fst] in X1.
      exfalso. apply nth_error_In in X1. apply (hits_none f _ OF W2 G2 u) with (t := u); [|lra|exact X1]. intros v V. rewrite RU2, PA. lra.
    - rewrite RU2. apply SHELL. nra.
    - rewrite RU2. apply SHELL. replace (Q - o + o) with Q by ring. nra.
    - intros u U. rewrite RU2, SHELL. intro X. assert (V : Q < u + o) by lra. set (v := u + o) in *. nra. }
  destruct (next_at asort h t 0 (Leaf f b) g bx r AS NW PRO t' 0 w1 _ _ _ f _ (Q - o) d (s_id g) T R1 ltac:(lia) IF eq_refl MA WN NU) as (w2 & R2); [|reflexivity|reflexivity|exact H3|].
  { unfold d, vsub, vadd, vopp, vscale, vdot; cbn [vx vy vz vw]. f_equal; lra. }
  exists (Leaf f b), w1, w2. destruct R1 as (J1 & T1 & P1 & S1 & _), R2 as (J2 & _).
  split; [exact PS|]. split.
  - exists (beam r), h, t, [Leaf f b; Leaf g bx], 22%nat, t', (Leaf f b), 0%nat, 0%nat, [], f. do 2 (split; [assumption|]). split; [left; reflexivity|].
    split; [apply moved_mid; intros f' [<- | []]; auto|]. do 2 (split; [assumption|]). split; [reflexivity|]. split; [exact S1|]. exists (pt (1 / 2) 0 0). rewrite mid_at. split; [|exact P1].
    exists 0, 0. auto.
  - rewrite P1, T1, mid_at. unfold pt, vadd, vscale; cbn [vx vy vz vw]. f_equal; lra.
Qed.
