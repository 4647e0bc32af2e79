(** * TraceExamples: a bench of mirrors, glass and absorbers along the z axis *)
From Coq Require Import Reals List Bool ZArith Lra Lia Psatz.
Import ListNotations.
From Verif Require Import XR XRFacts Arr Ops Lin LinFacts Prim Csg Surf SpecGeom SpecTree World SpecWorld Tracer SpecTrace SpecOptics OpsFacts CsgProps
  TraceFacts TraceFacts2 TraceFacts3 TraceFacts4 TraceFacts5 TraceFacts6 TraceFacts7 TraceFacts8 TraceFacts9 WorldExamples.
Open Scope R_scope.
Definition square : prim := PPlane 2 2.
Definition bench_calls : list call :=
  [CSurface square Mirror; CMotion 0%nat (Move 0 0 1);
   CSurface square (Refractor (fun _ => Fin (3 / 2))); CMotion 1%nat (Move 0 0 (-1));
   CSurface square Absorber; CMotion 2%nat (Move 0 0 (-2));
   CSurface square Mirror; CMotion 3%nat (Move 0 0 (-1))].
Definition sheet (i : Z) (a : R) (m : material) : surf :=
  Surf i square (shift 0 0 a) (shift 0 0 (- a)) 1 m.
Definition standing (a : R) (s : surf) : shape := Leaf s (surf_box square (shift 0 0 a)).

Lemma bench : forall asort, exists h, run_prog asort bench_calls empty_heap = Ok h /\
  shape_of h 0%nat = Some (standing 1 (sheet 0 1 Mirror)) /\
  shape_of h 1%nat = Some (standing (-1) (sheet 1 (-1) (Refractor (fun _ => Fin (3 / 2))))) /\
  shape_of h 2%nat = Some (standing (-2) (sheet 2 (-2) Absorber)) /\
  shape_of h 3%nat = Some (standing (-1) (sheet 3 (-1) Mirror)) /\
  lut_of h 0%nat = Some [(0%Z, 0%nat)] /\ lut_of h 1%nat = Some [(1%Z, 1%nat)] /\
  lut_of h 2%nat = Some [(2%Z, 2%nat)] /\ lut_of h 3%nat = Some [(3%Z, 3%nat)].
Proof.
  intros asort. eexists. split; [unfold bench_calls, square; go; reflexivity|].
  repeat split; reflexivity.
Qed.

(** ** Rays along the axis *)
Definition axis (p d : R) : ray := Ray (point 0 0 p) (vector 0 0 d).
Lemma isclose_00 : isclose 0 0 = true.
Proof. unfold isclose. apply rleb_true. rewrite Rminus_0_r, Rabs_R0. unfold atol, rtol. lra. Qed.
Lemma isclose_dir : forall d, d = 1 \/ d = -1 -> isclose d 0 = false.
Proof.
  intros d D. unfold isclose. apply rleb_false. rewrite Rminus_0_r, Rabs_R0. unfold atol, rtol.
  destruct D as [-> | ->]; [rewrite Rabs_R1|rewrite Rabs_left by lra]; lra.
Qed.
Lemma sheet_ray : forall a p d, ray_map (shift 0 0 (- a)) (axis p d) = axis (p - a) d.
Proof.
  intros. unfold ray_map, axis, shift, mapply, vdot, point, vector; cbn [origin direction row0 row1 row2 row3 vx vy vz vw].
  f_equal; apply v4_eq; cbn [vx vy vz vw]; ring.
Qed.
Lemma sheet_hits : forall asort i a m b p d, d = 1 \/ d = -1 ->
  shape_intersect asort (Leaf (sheet i a m) b) (axis p d) = ([Fin ((a - p) * d); Fin ((a - p) * d)], [i; i]).
Proof.
  intros asort i a m b p d D. cbn [shape_intersect s_id sheet]. unfold surf_hits. cbn [s_prim s_obj sheet square prim_hits].
  rewrite sheet_ray. unfold plane_hits, axis, plane_axis_hits. cbn [origin direction point vector vx vy vz].
  rewrite isclose_00, (isclose_dir d D). cbn [b2r].
  assert (R0 : rleb (Rabs 0) (2 / 2) = true) by (apply rleb_true; rewrite Rabs_R0; lra). rewrite R0.
  cbn [sort2 fst snd xsle xleb andb]. rewrite Rplus_0_r, xdiv_fin by (destruct D as [-> | ->]; lra).
  cbn [sort2 fst snd xsle xleb andb]. 
  assert (E : - (p - a) / d = (a - p) * d) by (destruct D as [-> | ->]; field). rewrite E.
  unfold sort2. cbn [fst snd]. destruct (xsle _ _); reflexivity.
Qed.
Lemma sheet_near : forall asort i a m b p d best, d = 1 \/ d = -1 -> 0 < (a - p) * d -> xltb (Fin ((a - p) * d)) (fst best) = true ->
  propagate_shape asort (axis p d) best (Leaf (sheet i a m) b) = (Fin ((a - p) * d), i).
Proof.
  intros asort i a m b p d best D X L. unfold propagate_shape. rewrite sheet_hits by auto. cbn [map]. unfold positive_or_inf.
  assert (P : xltb (Fin 0) (Fin ((a - p) * d)) = true) by (cbn; apply rltb_true; auto). rewrite P.
  unfold argmin. cbn [argmin_from]. replace (xltb (Fin ((a - p) * d)) (Fin ((a - p) * d))) with false by (symmetry; cbn; apply rltb_false; lra).
  cbn [nth]. rewrite L. reflexivity.
Qed.
Lemma sheet_far : forall asort i a m b p d best, d = 1 \/ d = -1 ->
  (a - p) * d <= 0 \/ xltb (Fin ((a - p) * d)) (fst best) = false ->
  propagate_shape asort (axis p d) best (Leaf (sheet i a m) b) = best.
Proof.
  intros asort i a m b p d best D L. unfold propagate_shape. rewrite sheet_hits by auto. cbn [map]. unfold positive_or_inf.
  destruct (xltb (Fin 0) (Fin ((a - p) * d))) eqn:P.
  - unfold argmin. cbn [argmin_from]. replace (xltb (Fin ((a - p) * d)) (Fin ((a - p) * d))) with false by (symmetry; cbn; apply rltb_false; lra).
    cbn [nth]. cbn in P. apply rltb_true in P. destruct L as [L|L]; [lra|]. rewrite L. reflexivity.
  - unfold argmin. cbn [argmin_from xltb nth]. destruct (fst best); reflexivity.
Qed.
Lemma sheet_normal : forall i a m q, world_normal (sheet i a m) q = Some (vector 0 0 1).
Proof.
  intros. unfold world_normal. cbn [s_prim s_obj s_nscale sheet square prim_normal].
  assert (E : vset_w (mapply (mtrans (shift 0 0 (- a))) plane_normal) 0 = vector 0 0 1).
  { unfold vset_w, mapply, mtrans, shift, plane_normal, vector, vdot; cbn [row0 row1 row2 row3 vx vy vz vw]. apply v4_eq; cbn [vx vy vz vw]; ring. }
  rewrite E. unfold vnormalize. rewrite unit_norm.
  assert (D : vdot (vector 0 0 1) (vector 0 0 1) = 1) by (unfold vdot, vector; cbn [vx vy vz vw]; ring).
  rewrite D. destruct (Req_EM_T 1 0); [lra|]. f_equal.
  unfold vscale, vector; cbn [vx vy vz vw]. apply v4_eq; cbn [vx vy vz vw]; field.
Qed.
Lemma forward_axis : forall x c p d, c_ray c = axis p d -> forward x c = with_ray (axis (p + x * d) d) c.
Proof.
  intros x c p d H. unfold forward. rewrite H. unfold axis; cbn [origin direction]. f_equal. f_equal.
  unfold vadd, vscale, point, vector; cbn [vx vy vz vw]. apply v4_eq; cbn [vx vy vz vw]; ring.
Qed.
Lemma mirror_axis : forall i a x c p d, c_ray c = axis p d ->
  material_trace (sheet i a Mirror) (forward x c) = Some (with_ray (axis (p + x * d) (- d)) c).
Proof.
  intros i a x c p d H. unfold material_trace. cbn [s_mat sheet]. rewrite sheet_normal, (forward_axis x c p d H).
  unfold with_direction, with_ray; cbn [c_ray c_gen c_int c_wl c_idx c_id origin direction axis]. do 2 f_equal. unfold axis. f_equal.
  unfold reflect, vsub, vadd, vopp, vscale, vector, vdot; cbn [vx vy vz vw]. apply v4_eq; cbn [vx vy vz vw]; ring.
Qed.
Lemma absorber_axis : forall i a x c p d, c_ray c = axis p d ->
  material_trace (sheet i a Absorber) (forward x c) = Some (with_ray (Ray (point 0 0 (p + x * d)) zero4) c).
Proof. intros i a x c p d H. unfold material_trace. cbn [s_mat sheet]. rewrite (forward_axis x c p d H). reflexivity. Qed.
Lemma axis_norm : forall d, d = 1 \/ d = -1 -> vnorm (vector 0 0 d) = 1.
Proof.
  intros d D. unfold vnorm, vdot, vector; cbn [vx vy vz vw]. replace (_ + _) with (1 * 1) by (destruct D as [-> | ->]; ring).
  rewrite sqrt_square; lra.
Qed.
Lemma axis_live : forall c p d, d = 1 \/ d = -1 -> c_ray c = axis p d -> absorbed c = false.
Proof. intros c p d D H. unfold absorbed. rewrite H. cbn [direction axis]. rewrite axis_norm; auto. apply isclose_dir. auto. Qed.
Definition axis_row (c : col) (p d q : R) (sid : Z) : row :=
  Row (c_gen c) (c_int c) (c_wl c) (c_idx c) (c_id c) sid (vector 0 0 p) (vector 0 0 q) (vector 0 0 d).
Lemma axis_step : forall asort comps lut c p d x sid c' q, d = 1 \/ d = -1 -> c_ray c = axis p d ->
  propagate asort comps c = (Fin x, sid) -> sid <> (-1)%Z ->
  cell_pass lut ((Fin x, sid), Some c) = ((Fin x, sid), Some c') -> origin (c_ray c') = point 0 0 q ->
  step_ray asort comps lut c = SGo (axis_row c p d q sid) c'.
Proof.
  intros asort comps lut c p d x sid c' q D H P S C O. unfold step_ray, cell_of. rewrite P. unfold dead, logical_or_out, start_cell.
  rewrite (axis_live c p d D H). cbn [snd orb]. apply Z.eqb_neq in S. rewrite S, C. cbn [snd].
  unfold make_row. rewrite H. cbn [direction origin axis].
  assert (T : trim (vector 0 0 d) = vector 0 0 d) by reflexivity. rewrite T. unfold vnormalize. rewrite axis_norm by auto.
  assert (DD : vdot (vector 0 0 d) (vector 0 0 d) = 1) by (unfold vdot, vector; cbn [vx vy vz vw]; destruct D as [-> | ->]; ring).
  rewrite DD. destruct (Req_EM_T 1 0); [lra|]. unfold axis_row. rewrite O. do 2 f_equal.
  unfold vscale, vector; cbn [vx vy vz vw]. apply v4_eq; cbn [vx vy vz vw]; field.
Qed.

(** ** One ray through the machine *)
Definition traceable (lut : list (Z * surf)) : Prop := forall e, In e lut -> s_mat (snd e) <> Untraceable.
Section OneRay.
  Variables (asort : list xr -> list nat) (h : heap) (gen : loc -> nat -> list col).
  Variables (comps : list shape) (lut : list (Z * surf)).
  Hypothesis TL : traceable lut.
  Lemma run_go : forall n t c w c', t_state t = PROPAGATE -> t_rays t = [c] ->
    collect (map (shape_of h) (t_comps t)) = Some comps -> collect (map (entry_of h) (t_lut t)) = Some lut ->
    step_ray asort comps lut c = SGo w c' ->
    exists t1, run_states asort h gen (S (S n)) t = run_states asort h gen n t1 /\
      t_state t1 = (if Z.eqb (Z.of_nat (S (t_gen t))) (t_limit t) then FINISH else PROPAGATE) /\
      f_rows (t_frame t1) = f_rows (t_frame t) ++ [w] /\ t_gen t1 = S (t_gen t) /\
      (Z.of_nat (S (t_gen t)) <> t_limit t -> t_rays t1 = [onward (t_gen t) c']) /\
      same_setup t t1.
  Proof.
    intros n t c w c' S R C L SR. rewrite run_S, S. cbn iota. unfold st_propagate. rewrite C. cbn [tbind]. rewrite run_S.
    cbn [t_state set_state set_hits]. unfold st_interact. cbn [t_lut t_limit t_gen t_rays t_hits t_frame set_hits set_state]. rewrite L, R.
    pose proof (interact_cases asort comps lut (t_limit t) (t_gen t) [c]) as I. cbn [map] in *.
    destruct (interact lut (t_limit t) (t_gen t) [c] [propagate asort comps c]) as [|rows rays g fin| |].
    - specialize (I c (or_introl eq_refl)). congruence.
    - destruct I as (_ & _ & -> & -> & -> & ->). cbn [tbind]. eexists. split; [reflexivity|].
      cbn [t_state set_state t_frame set_frame f_rows set_gen set_rays t_gen t_rays set_hits].
      unfold same_setup. cbn [t_sources t_comps t_n t_limit t_lut set_state set_frame set_gen set_rays set_hits].
      repeat (split; [solve [auto]|]). split; [cbn; unfold step_rows; rewrite SR; auto|]. split; [auto|]. split; [|repeat split; auto].
      intros NE. apply Z.eqb_neq in NE. rewrite NE. cbn. unfold step_next. rewrite SR. reflexivity.
    - exfalso. destruct I as (e & c1 & IE & MU & _). apply (TL e IE MU).
    - destruct I as (c1 & [<-|[]] & I). congruence.
  Qed.
  Lemma run_stop : forall n t c, t_state t = PROPAGATE -> t_rays t = [c] ->
    collect (map (shape_of h) (t_comps t)) = Some comps -> collect (map (entry_of h) (t_lut t)) = Some lut ->
    step_ray asort comps lut c = SStop ->
    exists t1, run_states asort h gen (S (S n)) t = run_states asort h gen n t1 /\
      t_state t1 = FINISH /\ t_frame t1 = t_frame t /\ same_setup t t1.
  Proof.
    intros n t c S R C L SR. rewrite run_S, S. cbn iota. unfold st_propagate. rewrite C. cbn [tbind]. rewrite run_S.
    cbn [t_state set_state set_hits]. unfold st_interact. cbn [t_lut t_limit t_gen t_rays t_hits t_frame set_hits set_state]. rewrite L, R.
    pose proof (interact_cases asort comps lut (t_limit t) (t_gen t) [c]) as I. cbn [map] in *.
    destruct (interact lut (t_limit t) (t_gen t) [c] [propagate asort comps c]) as [|rows rays g fin| |].
    - cbn [tbind]. eexists. split; [reflexivity|]. repeat split; auto.
    - destruct I as (_ & (c1 & [<-|[]] & (w & n1 & I)) & _). congruence.
    - exfalso. destruct I as (e & c1 & IE & MU & _). apply (TL e IE MU).
    - destruct I as (c1 & [<-|[]] & I). congruence.
  Qed.
  Lemma run_finish : forall n t, t_state t = FINISH -> exists t1, run_states asort h gen (S (S n)) t = TOk t1 /\ t_frame t1 = t_frame t.
  Proof.
    intros n t S. rewrite run_S, S. cbn iota. unfold st_finish. cbn [tbind]. rewrite run_S. cbn [t_state set_state].
    eexists. split; [reflexivity|]. reflexivity.
  Qed.
  Lemma trace_start : forall n t c, t_sources t <> [] -> source_rays gen t = [c] ->
    exists t1, trace asort h gen (S n) t = run_states asort h gen n t1 /\ t_state t1 = PROPAGATE /\
      t_frame t1 = empty_frame /\ t_gen t1 = O /\ t_rays t1 = [with_id 0 c] /\ same_setup t t1.
  Proof.
    intros n t c S R. unfold trace. rewrite run_S. cbn [t_state set_state]. unfold st_initialize.
    cbn [t_sources reset set_gen set_state set_frame set_complete t_n].
    destruct (t_sources t) as [|s ss] eqn:ES; [congruence|]. cbn [tbind]. eexists. split; [reflexivity|].
    cbn [t_state set_state t_frame t_gen t_rays set_rays]. repeat (split; [reflexivity|]). split.
    - change (renumber 0 (concat (map (fun s0 => gen s0 (t_n t)) (s :: ss))) = [with_id 0 c]).
      unfold source_rays in R. rewrite ES in R. rewrite R. reflexivity.
    - unfold same_setup. cbn. rewrite ES. auto.
  Qed.
End OneRay.

(** ** Scenes on the bench *)
(** a lamp at the origin sending rays along the axis *)
Definition emit (d int : R) : loc -> nat -> list col := fun _ n => repeat (Col (axis 0 d) 0 int 1 1 0) n.
Definition on_bench (asort : list xr -> list nat) (h : heap) : Prop :=
  run_prog asort bench_calls empty_heap = Ok h /\
  shape_of h 0%nat = Some (standing 1 (sheet 0 1 Mirror)) /\
  shape_of h 1%nat = Some (standing (-1) (sheet 1 (-1) (Refractor (fun _ => Fin (3 / 2))))) /\
  shape_of h 2%nat = Some (standing (-2) (sheet 2 (-2) Absorber)) /\
  shape_of h 3%nat = Some (standing (-1) (sheet 3 (-1) Mirror)) /\
  lut_of h 0%nat = Some [(0%Z, 0%nat)] /\ lut_of h 1%nat = Some [(1%Z, 1%nat)] /\
  lut_of h 2%nat = Some [(2%Z, 2%nat)] /\ lut_of h 3%nat = Some [(3%Z, 3%nat)].

Lemma near_stop : 0 < ray_offset_value < 1 / 2.
Proof. unfold ray_offset_value. lra. Qed.
Ltac dirs := first [left; lra | right; lra].

(** a mirror at z = 1 and an absorber at z = -2 *)
Definition out_row (int : R) : row := Row 0 int 1 1 0 0 (vector 0 0 0) (vector 0 0 1) (vector 0 0 1).
Definition back_row (int : R) : row :=
  Row 1 int 1 1 0 2 (vector 0 0 (1 - ray_offset_value)) (vector 0 0 (-2)) (vector 0 0 (-1)).
Lemma there_and_back : forall asort h, on_bench asort h -> forall int limit n t, limit <> 1%Z -> limit <> 2%Z ->
  new_tracer h [9%nat] [0; 2]%nat 1 limit = Some t ->
  exists t', trace asort h (emit 1 int) (9 + n) t = TOk t' /\ f_rows (get_results t') = [out_row int; back_row int].
Proof.
  intros asort h (_ & S0 & S1 & S2 & S3 & L0 & L1 & L2 & L3) int limit n t N1 N2 NT.
  unfold new_tracer in NT. cbn [map collect] in NT. rewrite L0, L2 in NT. cbn [collect concat app] in NT. injection NT as <-.
  set (comps := [standing 1 (sheet 0 1 Mirror); standing (-2) (sheet 2 (-2) Absorber)]).
  set (lut := [(0%Z, sheet 0 1 Mirror); (2%Z, sheet 2 (-2) Absorber)]).
  assert (TL : traceable lut) by (intros e [<-|[<-|[]]]; discriminate).
  assert (CO : collect (map (shape_of h) [0; 2]%nat) = Some comps) by (cbn [map]; rewrite S0, S2; reflexivity).
  assert (CL : collect (map (entry_of h) [(0%Z, 0%nat); (2%Z, 2%nat)]) = Some lut)
    by (cbn [map]; unfold entry_of, surf_of; cbn [fst snd]; rewrite S0, S2; reflexivity).
  set (t := Tracer _ _ _ _ _ _ _ _ _ _ _).
  destruct (trace_start asort h (emit 1 int) (8 + n) t (Col (axis 0 1) 0 int 1 1 0)) as (t1 & E1 & ST1 & F1 & G1 & R1 & Q1); [discriminate|reflexivity|].
  set (c0 := with_id 0 (Col (axis 0 1) 0 int 1 1 0)) in *.
  assert (P0 : propagate asort comps c0 = (Fin ((1 - 0) * 1), 0%Z)).
  { unfold propagate, comps, standing. change (c_ray c0) with (axis 0 1). cbn [fold_left]. rewrite (sheet_near asort 0%Z 1 Mirror); [|dirs|lra|reflexivity].
    apply sheet_far; [dirs|]. left; lra. }
  assert (X0 : step_ray asort comps lut c0 = SGo (out_row int) (with_ray (axis (0 + (1 - 0) * 1 * 1) (- 1)) c0)).
  { rewrite (axis_step asort comps lut c0 0 1 ((1 - 0) * 1) 0%Z (with_ray (axis (0 + (1 - 0) * 1 * 1) (- 1)) c0) 1); auto; try discriminate; try dirs.
    - unfold lut, cell_pass. cbn [fold_left hit_of fst snd Z.eqb]. unfold apply_surface. cbn [fst snd].
      rewrite (mirror_axis 0 1 _ c0 0 1 eq_refl). reflexivity.
    - cbn [c_ray with_ray origin axis]. f_equal; ring. }
  assert (ES : t_comps t1 = [0; 2]%nat /\ t_lut t1 = [(0%Z, 0%nat); (2%Z, 2%nat)] /\ t_limit t1 = limit).
  { destruct Q1 as (_ & A & _ & B & C). rewrite <- A, <- B, <- C. auto. }
  destruct ES as (EC1 & EL1 & EM1).
  destruct (run_go asort h (emit 1 int) comps lut TL (6 + n) t1 c0 _ _ ST1 R1 ltac:(rewrite EC1; exact CO) ltac:(rewrite EL1; exact CL) X0)
    as (t2 & E2 & ST2 & F2 & G2 & R2 & Q2).
  rewrite G1, EM1 in ST2. replace (Z.of_nat 1) with 1%Z in ST2 by reflexivity.
  destruct (Z.eqb_spec 1 limit) as [K|_]; [congruence|]. rewrite G1, EM1 in R2. specialize (R2 ltac:(cbn; congruence)).
  set (c1 := onward 0 (with_ray (axis (0 + (1 - 0) * 1 * 1) (- 1)) c0)) in *.
  assert (A1 : c_ray c1 = axis (1 - ray_offset_value) (-1)).
  { unfold c1, onward. rewrite (forward_axis _ (with_gen 1 (with_ray (axis (0 + (1 - 0) * 1 * 1) (- 1)) c0)) (0 + (1 - 0) * 1 * 1) (- 1) eq_refl). cbn [c_ray with_ray with_gen]. f_equal; lra. }
  assert (P1 : propagate asort comps c1 = (Fin ((-2 - (1 - ray_offset_value)) * -1), 2%Z)).
  { pose proof near_stop. unfold propagate, comps, standing. cbn [fold_left]. rewrite A1. rewrite (sheet_far asort 0%Z 1 Mirror); [|dirs|left; lra].
    apply sheet_near; [dirs|lra|reflexivity]. }
  assert (X1 : step_ray asort comps lut c1 = SGo (back_row int)
     (with_ray (Ray (point 0 0 (1 - ray_offset_value + (-2 - (1 - ray_offset_value)) * -1 * -1)) zero4) c1)).
  { rewrite (axis_step asort comps lut c1 (1 - ray_offset_value) (-1) _ 2%Z
      (with_ray (Ray (point 0 0 (1 - ray_offset_value + (-2 - (1 - ray_offset_value)) * -1 * -1)) zero4) c1) (-2) ltac:(dirs) A1 P1); auto; try discriminate.
    - unfold lut, cell_pass. cbn [fold_left hit_of fst snd Z.eqb Pos.eqb]. unfold apply_surface. cbn [fst snd].
      rewrite (absorber_axis 2 (-2) _ c1 _ _ A1). reflexivity.
    - cbn [c_ray with_ray origin]. f_equal; ring. }
  assert (ES : t_comps t2 = [0; 2]%nat /\ t_lut t2 = [(0%Z, 0%nat); (2%Z, 2%nat)] /\ t_limit t2 = limit).
  { destruct Q2 as (_ & A & _ & B & C). rewrite <- A, <- B, <- C. auto. }
  destruct ES as (EC2 & EL2 & EM2).
  destruct (run_go asort h (emit 1 int) comps lut TL (4 + n) t2 c1 _ _ ST2 R2 ltac:(rewrite EC2; exact CO) ltac:(rewrite EL2; exact CL) X1)
    as (t3 & E3 & ST3 & F3 & G3 & R3 & Q3).
  rewrite G2, G1, EM2 in ST3. replace (Z.of_nat 2) with 2%Z in ST3 by reflexivity.
  destruct (Z.eqb_spec 2 limit) as [K|_]; [congruence|]. rewrite G2, G1, EM2 in R3. specialize (R3 ltac:(cbn; congruence)).
  match type of R3 with _ = [?x] => set (c2 := x) in * end.
  assert (X2 : step_ray asort comps lut c2 = SStop).
  { unfold step_ray. replace (dead c2 (propagate asort comps c2)) with true; auto. symmetry. unfold dead, logical_or_out.
    replace (absorbed c2) with true; auto. symmetry. apply stopped_absorbed. apply zero_stopped. reflexivity. }
  assert (ES : t_comps t3 = [0; 2]%nat /\ t_lut t3 = [(0%Z, 0%nat); (2%Z, 2%nat)]).
  { destruct Q3 as (_ & A & _ & B & C). rewrite <- A, <- C. auto. }
  destruct ES as (EC3 & EL3).
  destruct (run_stop asort h (emit 1 int) comps lut TL (2 + n) t3 c2 ST3 R3 ltac:(rewrite EC3; exact CO) ltac:(rewrite EL3; exact CL) X2)
    as (t4 & E4 & ST4 & F4 & Q4).
  destruct (run_finish asort h (emit 1 int) n t4 ST4) as (t5 & E5 & F5).
  exists t5. cbn [plus] in *. rewrite E1, E2, E3, E4, E5. split; auto. unfold get_results. rewrite F5, F4, F3, F2, F1. reflexivity.
Qed.

(** ** Nothing can go wrong on the bench *)
Lemma shift_is_inverse : forall a, is_inverse (shift 0 0 a) (shift 0 0 (- a)).
Proof. intros a. replace (shift 0 0 (- a)) with (shift (- 0) (- 0) (- a)) by (f_equal; lra). apply minv_some, shift_inv. Qed.
Lemma sheet_ok : forall P i a m, optical P m -> part_ok P (sheet i a m).
Proof.
  intros P i a m O. unfold part_ok. cbn [s_prim s_world s_obj s_nscale s_mat sheet square prim_ok capped].
  split; [lra|]. split; [reflexivity|]. split; [apply shift_is_inverse|]. auto.
Qed.
Definition glass : material := Refractor (fun _ => Fin (3 / 2)).
Definition bench_shape (l : nat) : shape :=
  match l with
  | 0%nat => standing 1 (sheet 0 1 Mirror)
  | 1%nat => standing (-1) (sheet 1 (-1) glass)
  | 2%nat => standing (-2) (sheet 2 (-2) Absorber)
  | _ => standing (-1) (sheet 3 (-1) Mirror)
  end.
Lemma bench_at : forall asort h l, on_bench asort h -> (l < 4)%nat ->
  shape_of h l = Some (bench_shape l) /\ lut_of h l = Some [(Z.of_nat l, l)] /\
  surface_ids (bench_shape l) = [match bench_shape l with Leaf s _ => s | _ => sheet 0 0 Mirror end] /\
  forall P s, In s (surface_ids (bench_shape l)) -> part_ok P s /\ s_id s = Z.of_nat l.
Proof.
  intros asort h l (_ & S0 & S1 & S2 & S3 & L0 & L1 & L2 & L3) L.
  do 4 (destruct l as [|l]; [split; [assumption|]; split; [assumption|]; split; [reflexivity|];
    intros P s [<-|[]]; split; [|reflexivity]; apply sheet_ok; simpl; auto; (intros wl _; exists (3 / 2); split; [reflexivity|lra])|]). lia.
Qed.
Lemma emitted_ok : forall d int s n c, d = 1 \/ d = -1 -> In c (emit d int s n) -> ray_ok c /\ c_gen c = O.
Proof.
  intros d int s n c D I. apply repeat_spec in I. subst c. split; [|reflexivity]. unfold ray_ok. cbn.
  repeat split; try lra. left. unfold unit, vdot; cbn. destruct D as [-> | ->]; ring.
Qed.
(** components [ls] chosen among the four, without repetition *)
Lemma bench_proper : forall asort h d int ls ss n limit t, on_bench asort h -> d = 1 \/ d = -1 ->
  Forall (fun l => (l < 4)%nat) ls -> NoDup ls -> ss <> [] -> (1 <= limit)%Z ->
  new_tracer h ss ls n limit = Some t -> proper (emit d int) h t (map bench_shape ls).
Proof.
  intros asort h d int ls ss n limit t B D L ND SN LM NT.
  destruct (new_tracer_table _ _ _ _ _ _ NT) as (TC & EC & ES & EN & EL). rewrite Forall_forall in L.
  assert (SR : forall c, In c (source_rays (emit d int) t) -> ray_ok c /\ c_gen c = O).
  { intros c H. unfold source_rays in H. apply in_concat in H. destruct H as (x & X & I).
    apply in_map_iff in X. destruct X as (s & <- & _). apply (emitted_ok _ _ _ _ _ D I). }
  unfold proper. rewrite EL, ES. split; [|split; [auto|split; [auto|split; [auto|]]]].
  - split; [|split; auto].
    + rewrite EC, map_map. apply map_ext_in. intros l I. apply (bench_at asort h l B (L l I)).
    + assert (E : map s_id (flat_map surface_ids (map bench_shape ls)) = map Z.of_nat ls).
      { clear - B L. induction ls as [|l ls IH]; auto. cbn [map flat_map]. rewrite map_app, IH by (intros; apply L; right; auto).
        destruct (bench_at asort h l B (L l (or_introl eq_refl))) as (_ & _ & SI & K).
        specialize (K (fun _ => True)). rewrite SI in *. cbn [map app]. f_equal. apply K. left; auto. }
      rewrite E. apply FinFun.Injective_map_NoDup; auto. intros a b. apply Nat2Z.inj.
  - intros s I. apply in_flat_map in I. destruct I as (x & X & I). apply in_map_iff in X. destruct X as (l & <- & IL).
    apply (bench_at asort h l B (L l IL)). auto.
Qed.
Lemma bench_tracer : forall asort h ss ls n limit, on_bench asort h -> Forall (fun l => (l < 4)%nat) ls ->
  new_tracer h ss ls n limit = Some (Tracer empty_frame IDLE 0 false ss ls n limit [] [] (map (fun l => (Z.of_nat l, l)) ls)).
Proof.
  intros asort h ss ls n limit B L. unfold new_tracer.
  assert (E : exists luts, collect (map (lut_of h) ls) = Some luts /\ concat luts = map (fun l => (Z.of_nat l, l)) ls).
  { rewrite Forall_forall in L. induction ls as [|l ls IH]; [exists []; auto|].
    destruct IH as (luts & C & E); [intros; apply L; right; auto|]. exists ([(Z.of_nat l, l)] :: luts).
    cbn [map collect]. destruct (bench_at asort h l B (L l (or_introl eq_refl))) as (_ & -> & _). rewrite C. split; auto.
    cbn [concat app]. rewrite E. auto. }
  destruct E as (luts & -> & ->). reflexivity.
Qed.

Definition bench_entry (l : nat) : Z * surf := (Z.of_nat l, match bench_shape l with Leaf s _ => s | _ => sheet 0 0 Mirror end).
Lemma bench_collect : forall asort h ls, on_bench asort h -> Forall (fun l => (l < 4)%nat) ls ->
  collect (map (shape_of h) ls) = Some (map bench_shape ls) /\
  collect (map (entry_of h) (map (fun l => (Z.of_nat l, l)) ls)) = Some (map bench_entry ls) /\
  traceable (map bench_entry ls).
Proof.
  intros asort h ls B L. induction ls as [|l ls IH].
  - repeat split; auto. intros e [].
  - inversion L as [|? ? L1 L2]; subst. destruct (IH L2) as (A & C & T). cbn [map collect].
    destruct (bench_at asort h l B L1) as (SH & _ & SI & _). rewrite A, C, SH.
    unfold entry_of, surf_of. cbn [fst snd]. rewrite SH.
    assert (K : exists s b, bench_shape l = Leaf s b /\ s_mat s <> Untraceable).
    { do 3 (destruct l as [|l]; [do 2 eexists; split; [reflexivity|discriminate]|]).
      do 2 eexists; split; [reflexivity|discriminate]. }
    destruct K as (s & b & E & M). 
    assert (BE : bench_entry l = (Z.of_nat l, s)) by (unfold bench_entry; rewrite E; auto). rewrite BE, E. repeat split; auto.
    intros e [<-|I]; [exact M|apply T; auto].
Qed.

(** *** two facing mirrors and a limit that is never reached *)
Lemma between_mirrors : forall asort h, on_bench asort h -> forall gen n t c p d,
  t_state t = PROPAGATE -> t_rays t = [c] -> c_ray c = axis p d -> d = 1 \/ d = -1 -> -1 < p < 1 ->
  t_comps t = [0; 3]%nat -> t_lut t = [(0%Z, 0%nat); (3%Z, 3%nat)] -> (t_limit t <= 0)%Z ->
  run_states asort h gen n t = TFuel.
Proof.
  intros asort h B gen. induction n as [n IH] using lt_wf_ind. intros t c p d ST R A D P EC EL LM.
  destruct n as [|n]; [cbn; rewrite ST; reflexivity|].
  destruct (bench_collect asort h [0; 3]%nat B) as (CO & CL & TL); [repeat constructor|].
  destruct n as [|n].
  { rewrite run_S, ST. unfold st_propagate. rewrite EC, CO. reflexivity. }
  set (comps := map bench_shape [0; 3]%nat) in *. set (lut := map bench_entry [0; 3]%nat) in *.
  pose proof near_stop as OFF.
  assert (X : exists w c', step_ray asort comps lut c = SGo w c' /\ c_ray c' = axis d (- d)).
  { destruct D as [-> | ->].
    - assert (PR : propagate asort comps c = (Fin ((1 - p) * 1), 0%Z)).
      { unfold propagate, comps. cbn [map fold_left bench_shape]. unfold standing. rewrite A.
        rewrite (sheet_near asort 0%Z 1 Mirror); [|dirs|lra|reflexivity]. apply sheet_far; [dirs|]. left; lra. }
      assert (Q : p + (1 - p) * 1 * 1 = 1) by ring.
      do 2 eexists. split.
      + apply (axis_step asort comps lut c p 1 _ 0%Z (with_ray (axis (p + (1 - p) * 1 * 1) (- 1)) c) 1 ltac:(dirs) A PR); [discriminate| |].
        * unfold lut, cell_pass. cbn [map bench_entry bench_shape standing fold_left hit_of fst snd Z.eqb Z.of_nat Pos.of_succ_nat]. unfold apply_surface. cbn [fst snd].
          rewrite (mirror_axis 0 1 _ c p 1 A). reflexivity.
        * cbn [c_ray with_ray origin axis]. rewrite Q. reflexivity.
      + cbn [c_ray with_ray]. rewrite Q. reflexivity.
    - assert (PR : propagate asort comps c = (Fin ((-1 - p) * -1), 3%Z)).
      { unfold propagate, comps. cbn [map fold_left bench_shape]. unfold standing. rewrite A.
        rewrite (sheet_far asort 0%Z 1 Mirror); [|dirs|left; lra]. apply sheet_near; [dirs|lra|reflexivity]. }
      assert (Q : p + (-1 - p) * -1 * -1 = -1) by ring.
      do 2 eexists. split.
      + apply (axis_step asort comps lut c p (-1) _ 3%Z (with_ray (axis (p + (-1 - p) * -1 * -1) (- -1)) c) (-1) ltac:(dirs) A PR); [discriminate| |].
        * unfold lut, cell_pass. cbn [map bench_entry bench_shape standing fold_left hit_of fst snd Z.eqb Z.of_nat Pos.of_succ_nat Pos.succ Pos.eqb]. unfold apply_surface. cbn [fst snd].
          rewrite (mirror_axis 3 (-1) _ c p (-1) A). reflexivity.
        * cbn [c_ray with_ray origin axis]. rewrite Q. reflexivity.
      + cbn [c_ray with_ray]. rewrite Q. reflexivity. }
  destruct X as (w & c' & X & A').
  destruct (run_go asort h gen comps lut TL n t c w c' ST R ltac:(rewrite EC; exact CO) ltac:(rewrite EL; exact CL) X)
    as (t1 & E1 & ST1 & _ & G1 & R1 & (_ & Q1 & _ & Q2 & Q3)).
  assert (NE : Z.of_nat (S (t_gen t)) <> t_limit t) by lia.
  rewrite E1. apply (IH n ltac:(lia) t1 (onward (t_gen t) c') (d - ray_offset_value * d) (- d)); auto.
  - rewrite ST1. destruct (Z.eqb_spec (Z.of_nat (S (t_gen t))) (t_limit t)); [lia|auto].
  - unfold onward. rewrite (forward_axis _ (with_gen (S (t_gen t)) c') d (- d) A'). cbn [c_ray with_ray]. f_equal. ring.
  - destruct D as [-> | ->]; [right|left]; lra.
  - destruct D as [-> | ->]; lra.
  - congruence.
  - congruence.
  - rewrite <- Q2. auto.
Qed.
Lemma trapped : forall asort h, on_bench asort h -> forall limit fuel t, (limit <= 0)%Z ->
  new_tracer h [9%nat] [0; 3]%nat 1 limit = Some t -> trace asort h (emit 1 1) fuel t = TFuel.
Proof.
  intros asort h B limit fuel t L NT. rewrite (bench_tracer asort) in NT by (auto; repeat constructor). injection NT as <-.
  destruct fuel as [|fuel]; [reflexivity|].
  match goal with |- trace _ _ _ _ ?t = _ => destruct (trace_start asort h (emit 1 1) fuel t (Col (axis 0 1) 0 1 1 1 0))
    as (t1 & E1 & ST1 & F1 & G1 & R1 & (_ & Q1 & _ & Q2 & Q3)); [discriminate|reflexivity|] end.
  rewrite E1. apply (between_mirrors asort h B _ _ _ _ 0 1 ST1 R1 eq_refl); auto; try lra.
  rewrite <- Q2. auto.
Qed.

(** *** a table that does not know the new component *)
Definition fresh_row : row := Row 0 1 1 1 0 2 (vector 0 0 0) (vector 0 0 (-2)) (vector 0 0 (-1)).
Definition stale_row : row := Row 0 1 1 1 0 2 (vector 0 0 0) (vector 0 0 0) (vector 0 0 (-1)).
Lemma one_step : forall asort h gen ls ks c w c' n t, on_bench asort h -> Forall (fun l => (l < 4)%nat) ls -> Forall (fun l => (l < 4)%nat) ks ->
  t_comps t = ls -> t_lut t = map (fun l => (Z.of_nat l, l)) ks -> t_limit t = 1%Z ->
  t_sources t <> [] -> source_rays gen t = [c] ->
  step_ray asort (map bench_shape ls) (map bench_entry ks) (with_id 0 c) = SGo w c' ->
  exists t', trace asort h gen (5 + n) t = TOk t' /\ f_rows (get_results t') = [w].
Proof.
  intros asort h gen ls ks c w c' n t B L K EC EL EM S R X.
  destruct (bench_collect asort h ls B L) as (CO & _ & _). destruct (bench_collect asort h ks B K) as (_ & CL & TL).
  destruct (trace_start asort h gen (4 + n) t c S R) as (t1 & E1 & ST1 & F1 & G1 & R1 & (_ & Q1 & _ & Q2 & Q3)).
  destruct (run_go asort h gen _ _ TL (2 + n) t1 (with_id 0 c) w c' ST1 R1 ltac:(rewrite <- Q1, EC; exact CO) ltac:(rewrite <- Q3, EL; exact CL) X)
    as (t2 & E2 & ST2 & F2 & _). rewrite G1, <- Q2, EM in ST2. cbn in ST2.
  destruct (run_finish asort h gen n t2 ST2) as (t3 & E3 & F3). exists t3. cbn [plus] in *.
  rewrite E1, E2, E3. split; auto. unfold get_results. rewrite F3, F2, F1. reflexivity.
Qed.
Lemma down_to_absorber : forall asort ks,
  propagate asort (map bench_shape [2%nat]) (with_id 0 (Col (axis 0 (-1)) 0 1 1 1 0)) = (Fin ((-2 - 0) * -1), 2%Z) /\
  step_ray asort (map bench_shape [2%nat]) (map bench_entry [2%nat]) (with_id 0 (Col (axis 0 (-1)) 0 1 1 1 0)) =
    SGo fresh_row (with_ray (Ray (point 0 0 (0 + (-2 - 0) * -1 * -1)) zero4) (with_id 0 (Col (axis 0 (-1)) 0 1 1 1 0))) /\
  (~ In 2%nat ks ->
   step_ray asort (map bench_shape [2%nat]) (map bench_entry ks) (with_id 0 (Col (axis 0 (-1)) 0 1 1 1 0)) =
    SGo stale_row (with_id 0 (Col (axis 0 (-1)) 0 1 1 1 0))).
Proof.
  intros asort ks. set (c := with_id 0 (Col (axis 0 (-1)) 0 1 1 1 0)).
  assert (PR : propagate asort (map bench_shape [2%nat]) c = (Fin ((-2 - 0) * -1), 2%Z)).
  { unfold propagate. cbn [map fold_left bench_shape]. unfold standing. change (c_ray c) with (axis 0 (-1)).
    apply sheet_near; [dirs|lra|reflexivity]. }
  split; auto. split.
  - apply (axis_step asort _ _ c 0 (-1) _ 2%Z _ (-2) ltac:(dirs) eq_refl PR); [discriminate| |].
    + unfold cell_pass. cbn [map bench_entry bench_shape standing fold_left hit_of fst snd Z.eqb Z.of_nat Pos.of_succ_nat Pos.succ Pos.eqb]. unfold apply_surface. cbn [fst snd].
      rewrite (absorber_axis 2 (-2) _ c 0 (-1) eq_refl). reflexivity.
    + cbn [c_ray with_ray origin]. f_equal; ring.
  - intros NI. apply (axis_step asort _ _ c 0 (-1) _ 2%Z _ 0 ltac:(dirs) eq_refl PR); [discriminate| |reflexivity].
    apply cell_pass_skip. cbn [hit_of fst snd]. rewrite map_map. intros I. apply in_map_iff in I. destruct I as (l & E & I).
    cbn in E. assert (l = 2%nat) by lia. subst. auto.
Qed.
Lemma stale_table : forall asort h, on_bench asort h -> forall n t u,
  new_tracer h [9%nat] [0%nat] 1 1 = Some t -> new_tracer h [9%nat] [2%nat] 1 1 = Some u ->
  exists t' u', trace asort h (emit (-1) 1) (5 + n) (load_components [2%nat] t) = TOk t' /\
    trace asort h (emit (-1) 1) (5 + n) u = TOk u' /\
    f_rows (get_results t') = [stale_row] /\ f_rows (get_results u') = [fresh_row].
Proof.
  intros asort h B n t u NT NU. rewrite (bench_tracer asort) in NT, NU by (auto; repeat constructor).
  injection NT as <-. injection NU as <-.
  destruct (down_to_absorber asort [0%nat]) as (_ & FR & SR).
  assert (L2 : Forall (fun l => (l < 4)%nat) [2%nat]) by repeat constructor.
  assert (L0 : Forall (fun l => (l < 4)%nat) [0%nat]) by repeat constructor.
  match goal with |- context [load_components [2%nat] ?t] => destruct (one_step asort h (emit (-1) 1) [2%nat] [0%nat] (Col (axis 0 (-1)) 0 1 1 1 0) _ _ n
    (load_components [2%nat] t) B L2 L0 eq_refl eq_refl eq_refl ltac:(discriminate) eq_refl (SR ltac:(intros [E|[]]; discriminate))) as (t' & E1 & R1) end.
  match goal with |- exists t' u', _ /\ trace _ _ _ _ ?u = _ /\ _ => destruct (one_step asort h (emit (-1) 1) [2%nat] [2%nat] (Col (axis 0 (-1)) 0 1 1 1 0) _ _ n
    u B L2 L2 eq_refl eq_refl eq_refl ltac:(discriminate) eq_refl FR) as (u' & E2 & R2) end.
  exists t', u'. auto.
Qed.

(** *** the same mirror twice *)
Lemma apply_mirror : forall i a x sid c p d, c_ray c = axis p d ->
  apply_surface (sheet i a Mirror) ((Fin x, sid), Some c) = ((Fin x, sid), Some (with_ray (axis (p + x * d) (- d)) c)).
Proof. intros i a x sid c p d H. unfold apply_surface. cbn [fst]. rewrite (mirror_axis i a x c p d H). reflexivity. Qed.
Definition twice_row : row := Row 0 1 1 1 0 0 (vector 0 0 0) (vector 0 0 0) (vector 0 0 1).
Lemma mirror_twice : forall asort h, on_bench asort h -> forall n t,
  new_tracer h [9%nat] [0; 0]%nat 1 1 = Some t ->
  exists t', trace asort h (emit 1 1) (5 + n) t = TOk t' /\ f_rows (get_results t') = [twice_row].
Proof.
  intros asort h B n t NT. rewrite (bench_tracer asort) in NT by (auto; repeat constructor). injection NT as <-.
  assert (L : Forall (fun l => (l < 4)%nat) [0; 0]%nat) by repeat constructor.
  set (c := with_id 0 (Col (axis 0 1) 0 1 1 1 0)).
  assert (PR : propagate asort (map bench_shape [0; 0]%nat) c = (Fin ((1 - 0) * 1), 0%Z)).
  { unfold propagate. cbn [map fold_left bench_shape]. unfold standing. change (c_ray c) with (axis 0 1).
    rewrite (sheet_near asort 0%Z 1 Mirror _ 0 1 (PInf, (-1)%Z)); [|dirs|lra|reflexivity]. apply sheet_far; [dirs|]. right. cbn [fst xltb].
    apply rltb_false. lra. }
  assert (X : exists c', step_ray asort (map bench_shape [0; 0]%nat) (map bench_entry [0; 0]%nat) c = SGo twice_row c').
  { eexists. apply (axis_step asort _ _ c 0 1 _ 0%Z (with_ray (axis (0 + (1 - 0) * 1 * 1 + (1 - 0) * 1 * - 1) (- - 1)) c) 0 ltac:(dirs) eq_refl PR); [discriminate| |].
    - unfold cell_pass. cbn [map bench_entry bench_shape standing fold_left hit_of fst snd Z.eqb Z.of_nat]. 
      rewrite (apply_mirror 0 1 _ 0%Z c 0 1 eq_refl). cbn [snd fst Z.eqb].
      rewrite (apply_mirror 0 1 _ 0%Z (with_ray (axis (0 + (1 - 0) * 1 * 1) (- (1))) c) (0 + (1 - 0) * 1 * 1) (- (1)) eq_refl). reflexivity.
    - cbn [c_ray with_ray origin axis]. f_equal; ring. }
  destruct X as (c' & X).
  match goal with |- exists t', trace _ _ _ _ ?t = _ /\ _ => exact (one_step asort h (emit 1 1) [0; 0]%nat [0; 0]%nat (Col (axis 0 1) 0 1 1 1 0) _ _ n
    t B L L eq_refl eq_refl eq_refl ltac:(discriminate) eq_refl X) end.
Qed.

(** *** through glass *)
Lemma two_steps : forall asort h gen ls ks c w c' w' c'' n t, on_bench asort h -> Forall (fun l => (l < 4)%nat) ls ->
  Forall (fun l => (l < 4)%nat) ks ->
  t_comps t = ls -> t_lut t = map (fun l => (Z.of_nat l, l)) ks -> t_limit t = 2%Z ->
  t_sources t <> [] -> source_rays gen t = [c] ->
  step_ray asort (map bench_shape ls) (map bench_entry ks) (with_id 0 c) = SGo w c' ->
  step_ray asort (map bench_shape ls) (map bench_entry ks) (onward 0 c') = SGo w' c'' ->
  exists t', trace asort h gen (7 + n) t = TOk t' /\ f_rows (get_results t') = [w; w'].
Proof.
  intros asort h gen ls ks c w c' w' c'' n t B L K EC EL EM S R X X'.
  destruct (bench_collect asort h ls B L) as (CO & _ & _). destruct (bench_collect asort h ks B K) as (_ & CL & TL).
  destruct (trace_start asort h gen (6 + n) t c S R) as (t1 & E1 & ST1 & F1 & G1 & R1 & (_ & Q1 & _ & Q2 & Q3)).
  destruct (run_go asort h gen _ _ TL (4 + n) t1 (with_id 0 c) w c' ST1 R1 ltac:(rewrite <- Q1, EC; exact CO) ltac:(rewrite <- Q3, EL; exact CL) X)
    as (t2 & E2 & ST2 & F2 & G2 & R2 & (_ & P1 & _ & P2 & P3)). rewrite G1, <- Q2, EM in ST2, R2. cbn in ST2.
  specialize (R2 ltac:(cbn; lia)).
  destruct (run_go asort h gen _ _ TL (2 + n) t2 _ w' c'' ST2 R2 ltac:(rewrite <- P1, <- Q1, EC; exact CO) ltac:(rewrite <- P3, <- Q3, EL; exact CL) X')
    as (t3 & E3 & ST3 & F3 & _). rewrite G2, G1, <- P2, <- Q2, EM in ST3. cbn in ST3.
  destruct (run_finish asort h gen n t3 ST3) as (t4 & E4 & F4). exists t4. cbn [plus] in *.
  rewrite E1, E2, E3, E4. split; auto. unfold get_results. rewrite F4, F3, F2, F1. reflexivity.
Qed.
Lemma straight_in : refract (vector 0 0 (-1)) (vector 0 0 1) 1 (3 / 2) world_index = Some (vector 0 0 (-1), 3 / 2).
Proof.
  assert (U : unit (vector 0 0 (-1))) by (unfold unit, vdot, vector; cbn [vx vy vz vw]; ring).
  assert (UN : unit (vector 0 0 1)) by (unfold unit, vdot, vector; cbn [vx vy vz vw]; ring).
  assert (D : vdot (vector 0 0 (-1)) (vector 0 0 1) = -1) by (unfold vdot, vector; cbn [vx vy vz vw]; ring).
  assert (NI : next_index (vector 0 0 (-1)) (vector 0 0 1) (3 / 2) world_index = 3 / 2).
  { unfold next_index. destruct (Rlt_dec 0 _); auto. lra. }
  assert (T : tangential (vector 0 0 (-1)) (vector 0 0 1) = zero4).
  { unfold tangential. rewrite D. unfold vsub, vadd, vopp, vscale, vector, zero4; cbn [vx vy vz vw]. apply v4_eq; cbn [vx vy vz vw]; ring. }
  assert (Z4 : vnorm zero4 = 0).
  { unfold vnorm, vdot, zero4; cbn [vx vy vz vw]. replace (_ + _) with 0 by ring. apply sqrt_0. }
  destruct (refract_snell (vector 0 0 (-1)) (vector 0 0 1) 1 (3 / 2) world_index) as (d & -> & UD & SN & SI); auto.
  - unfold unit in U. rewrite U. lra.
  - lra.
  - lra.
  - unfold world_index. lra.
  - rewrite hat_id, T, Z4, NI by auto. lra.
  - rewrite NI in *. rewrite hat_id, T in SN by auto. rewrite D in SI. destruct (Rlt_dec 0 (-1)); [lra|].
    do 2 f_equal. destruct d as [x y z w]. unfold tangential, vdot, vsub, vadd, vopp, vscale, vector, zero4, unit in *; cbn [vx vy vz vw] in *.
    injection SN as S1 S2 S3 S4. apply v4_eq; cbn [vx vy vz vw]; try lra.
    assert (X0 : x = 0) by lra. assert (Y0 : y = 0) by lra. assert (W0 : w = 0) by lra. rewrite X0, Y0, W0 in UD, SI. unfold vdot in UD; cbn [vx vy vz vw] in UD.
    assert (K : (z - 1) * (z + 1) = 0) by lra. apply Rmult_integral in K. lra.
Qed.
Definition glass_row : row := Row 0 1 1 1 0 1 (vector 0 0 0) (vector 0 0 (-1)) (vector 0 0 (-1)).
Definition inside_row : row :=
  Row 1 1 1 (3 / 2) 0 2 (vector 0 0 (-1 - ray_offset_value)) (vector 0 0 (-2)) (vector 0 0 (-1)).
Lemma glass_steps : forall asort, exists c1 c2,
  step_ray asort (map bench_shape [1; 2]%nat) (map bench_entry [1; 2]%nat) (with_id 0 (Col (axis 0 (-1)) 0 1 1 1 0)) = SGo glass_row c1 /\
  step_ray asort (map bench_shape [1; 2]%nat) (map bench_entry [1; 2]%nat) (onward 0 c1) = SGo inside_row c2.
Proof.
  intros asort. pose proof near_stop as OFF.
  set (c := with_id 0 (Col (axis 0 (-1)) 0 1 1 1 0)).
  set (c1 := Col (axis (0 + (-1 - 0) * -1 * -1) (-1)) 0 1 1 (3 / 2) 0).
  assert (PR : propagate asort (map bench_shape [1; 2]%nat) c = (Fin ((-1 - 0) * -1), 1%Z)).
  { unfold propagate. cbn [map fold_left bench_shape]. unfold standing. change (c_ray c) with (axis 0 (-1)).
    rewrite (sheet_near asort 1%Z (-1) glass _ 0 (-1) (PInf, (-1)%Z)); [|dirs|lra|reflexivity]. apply sheet_far; [dirs|]. right. cbn [fst xltb].
    apply rltb_false. lra. }
  assert (X : step_ray asort (map bench_shape [1; 2]%nat) (map bench_entry [1; 2]%nat) c = SGo glass_row c1).
  { apply (axis_step asort _ _ c 0 (-1) _ 1%Z c1 (-1) ltac:(dirs) eq_refl PR); [discriminate| |].
    - unfold cell_pass. cbn [map bench_entry bench_shape standing fold_left hit_of fst snd Z.eqb Z.of_nat Pos.of_succ_nat Pos.succ Pos.eqb].
      unfold apply_surface. cbn [fst snd]. rewrite (forward_axis _ c 0 (-1) eq_refl). unfold material_trace. cbn [s_mat sheet glass].
      rewrite (sheet_normal 1 (-1) glass). cbn [c_ray with_ray c_wl c_idx with_id c direction axis].
      rewrite straight_in. reflexivity.
    - cbn [c_ray c1 origin axis]. f_equal; ring. }
  assert (A : c_ray (onward 0 c1) = axis (-1 - ray_offset_value) (-1)).
  { unfold onward. rewrite (forward_axis _ (with_gen 1 c1) (0 + (-1 - 0) * -1 * -1) (-1) eq_refl). cbn [c_ray with_ray]. f_equal; ring. }
  assert (PR' : propagate asort (map bench_shape [1; 2]%nat) (onward 0 c1) = (Fin ((-2 - (-1 - ray_offset_value)) * -1), 2%Z)).
  { unfold propagate. cbn [map fold_left bench_shape]. unfold standing. rewrite A.
    rewrite (sheet_far asort 1%Z (-1) glass); [|dirs|left; lra]. apply sheet_near; [dirs|lra|reflexivity]. }
  assert (X' : exists c'', step_ray asort (map bench_shape [1; 2]%nat) (map bench_entry [1; 2]%nat) (onward 0 c1) = SGo inside_row c'').
  { eexists. apply (axis_step asort _ _ (onward 0 c1) (-1 - ray_offset_value) (-1) _ 2%Z
      (with_ray (Ray (point 0 0 (-1 - ray_offset_value + (-2 - (-1 - ray_offset_value)) * -1 * -1)) zero4) (onward 0 c1)) (-2) ltac:(dirs) A PR'); [discriminate| |].
    - unfold cell_pass. cbn [map bench_entry bench_shape standing fold_left hit_of fst snd Z.eqb Z.of_nat Pos.of_succ_nat Pos.succ Pos.eqb]. unfold apply_surface. cbn [fst snd].
      rewrite (absorber_axis 2 (-2) _ (onward 0 c1) _ _ A). reflexivity.
    - cbn [c_ray with_ray origin]. f_equal; ring. }
  destruct X' as (c'' & X'). exists c1, c''. auto.
Qed.
Lemma through_glass : forall asort h, on_bench asort h -> forall n t,
  new_tracer h [9%nat] [1; 2]%nat 1 2 = Some t ->
  exists t', trace asort h (emit (-1) 1) (7 + n) t = TOk t' /\ f_rows (get_results t') = [glass_row; inside_row].
Proof.
  intros asort h B n t NT. rewrite (bench_tracer asort) in NT by (auto; repeat constructor). injection NT as <-.
  assert (L : Forall (fun l => (l < 4)%nat) [1; 2]%nat) by repeat constructor. destruct (glass_steps asort) as (c1 & c2 & X & X').
  match goal with |- exists t', trace _ _ _ _ ?t = _ /\ _ => exact (two_steps asort h (emit (-1) 1) [1; 2]%nat [1; 2]%nat (Col (axis 0 (-1)) 0 1 1 1 0) _ _ _ _ n
    t B L L eq_refl eq_refl eq_refl ltac:(discriminate) eq_refl X X') end.
Qed.

(** *** two lamps *)
Lemma two_lamps : forall asort h, on_bench asort h -> forall t, argsort_ok asort ->
  new_tracer h [8; 9]%nat [2%nat] 1 1 = Some t ->
  exists t', trace asort h (emit (-1) 1) 5 t = TOk t' /\ In (row_with_id 1 fresh_row) (f_rows (get_results t')) /\
    source_rays (emit (-1) 1) t = [Col (axis 0 (-1)) 0 1 1 1 0; Col (axis 0 (-1)) 0 1 1 1 0].
Proof.
  intros asort h B t AS NT. assert (L2 : Forall (fun l => (l < 4)%nat) [2%nat]) by repeat constructor.
  pose proof (bench_proper asort h (-1) 1 [2%nat] [8; 9]%nat 1 1 t B ltac:(dirs) L2 ltac:(repeat constructor; auto) ltac:(discriminate) ltac:(lia) NT) as PR.
  destruct PR as (SC & LM & SN & RO & PO). pose proof SC as (SH & TC & _).
  destruct (trace_succeeds asort AS h (emit (-1) 1) t 5 (map bench_shape [2%nat]) LM) as (t' & T); auto.
  { rewrite (bench_tracer asort) in NT by auto. injection NT as <-. cbn. lia. }
  { eapply scene_nodup; eauto. }
  { intros c I. apply RO; auto. }
  exists t'. split; auto.
  pose proof (bench_tracer asort h [9%nat] [2%nat] 1 1 B L2) as NU. 
  rewrite (bench_tracer asort) in NT by auto. injection NT as NT.
  destruct (down_to_absorber asort []) as (_ & FR & _).
  match type of NU with _ = Some ?u => destruct (one_step asort h (emit (-1) 1) [2%nat] [2%nat] (Col (axis 0 (-1)) 0 1 1 1 0) _ _ 0
    u B L2 L2 eq_refl eq_refl eq_refl ltac:(discriminate) eq_refl FR) as (u' & E2 & R2) end.
  assert (SR : source_rays (emit (-1) 1) t = [Col (axis 0 (-1)) 0 1 1 1 0; Col (axis 0 (-1)) 0 1 1 1 0]) by (subst t; reflexivity).
  split; auto.
  pose proof (rays_independent asort h (emit (-1) 1) (emit (-1) 1) _ _ _ t u' t' E2 T ltac:(subst t; reflexivity) ltac:(subst t; reflexivity) ltac:(subst t; reflexivity)
    0%nat 1%nat (Col (axis 0 (-1)) 0 1 1 1 0) eq_refl ltac:(rewrite SR; reflexivity)) as RI.
  rewrite R2 in RI. assert (IN : In (row_with_id 1 fresh_row) (rows_with_id 1 (f_rows (get_results t')))) by (rewrite RI; left; reflexivity).
  apply in_rows_with_id in IN. tauto.
Qed.
