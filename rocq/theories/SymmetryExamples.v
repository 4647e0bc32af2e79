(** * SymmetryExamples: a symmetric scene with rays on, beside and off the axis *)
From Coq Require Import Reals List Bool ZArith Lra Lia Psatz.
Import ListNotations.
From Verif Require Import XR XRFacts Arr Lin LinFacts Prim Csg CsgProps Surf SpecGeom SpecTree BoxFacts PrimFacts World SpecWorld WorldFacts WorldFacts3 BuildFacts Components SpecComponents
  ComponentFacts ComponentFacts2 ComponentOptics Tracer SpecTrace TraceFacts4 TraceFacts8 TraceProps SpecOptics
  SpecMotion SpecSymmetry SymmetryFacts SymmetryComponents SymmetryProps.
Open Scope R_scope.

(** components.plane_mirror(1, aperture=2).move_x(5) *)
Definition flat_calls : list call :=
  [CSurface (PCylinder 1 (- (1) / 2) (1 / 2) true) Mirror; CMotion 0 (Move 0 0 0);
   CMotion 0 (RotY 90 Deg); CMotion 0 (RotX 90 Deg); CMotion 0 (op_move_x 5)].
Lemma flat_factory : standing_at 5 (plane_mirror 1 (Round 2) (0, 0) Mirror) = Makes flat_calls 0.
Proof. unfold plane_mirror, standing_at, turned, create_aperture, flat_calls; cbn [app fst snd]. replace (2 / 2) with 1 by field. reflexivity. Qed.

(** three parallel rays, one of them on the axis *)
Definition beam (y : R) : col := Col (Ray (point 0 y 0) (vector 1 0 0)) 0 100 (633 / 1000) 1 0.
Definition beams (s : loc) (n : nat) : list col := [beam 0; beam (1 / 2); beam (- (1 / 2))].
Lemma nice_empty : forall asort, nice asort empty_heap.
Proof. intro asort. exists []. repeat constructor. Qed.

Lemma flat_scene : forall asort, argsort_ok asort -> exists h t t' comps,
  run_prog asort flat_calls empty_heap = Ok h /\ new_tracer h [9%nat] [0%nat] 3 10 = Some t /\
  proper beams h t comps /\ comps <> [] /\ Forall axially_symmetric comps /\ trace asort h beams 22 t = TOk t' /\
  source_rays beams t = [beam 0; beam (1 / 2); beam (- (1 / 2))] /\
  forall i, (i < 3)%nat -> rows_with_id i (f_rows (get_results t')) <> [].
Proof.
  intros asort AS.
  set (cyl := PCylinder 1 (- (1) / 2) (1 / 2) true).
  set (T := TLeaf cyl Mirror (mmul (mmove 5 0 0) (mmul rx90 (mmul ry90 (mmul (mmove 0 0 0) mid)))) 1).
  destruct (track_turned [CSurface cyl Mirror; CMotion 0 (Move 0 0 0)] 0 _ (TLeaf cyl Mirror (mmul (mmove 0 0 0) mid) 1) eq_refl eq_refl) as (env & E & N).
  assert (TR : track flat_calls [] = Some (set_nth env 0 (Some T))).
  { change flat_calls with (([CSurface cyl Mirror; CMotion 0 (Move 0 0 0)] ++ [CMotion 0 (RotY 90 Deg); CMotion 0 (RotX 90 Deg)]) ++ [CMotion 0 (op_move_x 5)]).
    rewrite track_app, E. cbn [track]. rewrite (track_move 0 (op_move_x 5) env _ (mmove 5 0 0) N Logic.I eq_refl). reflexivity. }
  assert (NT : nth_error (set_nth env 0 (Some T)) 0 = Some (Some T)) by (rewrite nth_set_nth, Nat.eqb_refl, N; reflexivity).
  destruct (built_component asort [CSurface cyl Mirror; CMotion 0 (Move 0 0 0);
   CMotion 0 (RotY 90 Deg); CMotion 0 (RotX 90 Deg)] 0%nat (op_move_x 5) empty_heap _ T AS (nice_empty asort) TR NT eq_refl) as (h & s & R & Sh & Er & TO & BC).
  { simpl. split; [lra|]. repeat (apply affine_mmul; [reflexivity|]). reflexivity. }
  change (run_prog asort flat_calls empty_heap = Ok h) in R. change (shape_of h 0%nat = Some s) in Sh.
  assert (W : mmul (mmove 5 0 0) (mmul rx90 (mmul ry90 (mmul (mmove 0 0 0) mid))) = tw 0 0 5).
  { rewrite mmul_mid_r. change (mmul rx90 (mmul ry90 (mmove 0 0 0))) with (turned_at 0). rewrite turned_slid, Rplus_0_l. apply tw_eq. }
  destruct (axial_shape 5 s (TLeaf cyl Mirror (mmul (mmove 0 0 0) mid) 1)) as (SY & SZ & _).
  { cbn [axial]. split; [|exists 0; apply mmul_mid_r]. apply (aperture_axial (Round 2) 1); [cbn [wide]; lra|]. cbn [create_aperture]. replace (2 / 2) with 1 by field. reflexivity. }
  { exact Er. }
  { exact BC. }
  unfold T in Er. rewrite W in Er. destruct (erase_leaf _ _ _ _ _ _ _ Er TO) as (f & b & -> & (P1 & P2 & P3 & P4) & OK).
  destruct (new_tracer h [9%nat] [0%nat] 3 10) as [t|] eqn:NW.
  2:{ exfalso. unfold new_tracer in NW. cbn [map collect] in NW. unfold shape_of in Sh. destruct (shape_lut _ _ _ _ Sh) as (ll & L & _). unfold lut_of in NW. rewrite L in NW. discriminate. }
  destruct (new_tracer_table _ _ _ _ _ _ NW) as (TC & EC & ES & EN & EL).
  assert (SR : source_rays beams t = [beam 0; beam (1 / 2); beam (- (1 / 2))]) by (unfold source_rays; rewrite ES; reflexivity).
  assert (P : proper beams h t [Leaf f b]).
  { split; [split; [rewrite EC; cbn [map]; rewrite Sh; reflexivity|split; [exact TC|cbn [flat_map surface_ids app map]; repeat constructor; intros []]]|].
    rewrite EL, ES, SR. split; [lia|]. split; [discriminate|]. split.
    - intros c [<-|[<-|[<-|[]]]]; (split; [|reflexivity]); unfold ray_ok, beam; cbn [c_ray origin direction c_idx point vector vw];
        (split; [reflexivity|]; split; [reflexivity|]; split; [left|lra]); unfold unit, vdot, vector; cbn [vx vy vz vw]; ring.
    - cbn [flat_map surface_ids app]. intros x [<-|[]]. destruct OK as (O1 & O2 & O3). split; [exact O1|]. split; [exact O2|]. split; [exact O3|].
      rewrite P1, P2, P4. split; [reflexivity|]. split; [auto|exact Logic.I]. }
  destruct (proper_trace_ok asort AS _ _ _ _ 22 P) as (t' & TO'); [rewrite EL; vm_compute; lia|].
  exists h, t, t', [Leaf f b]. split; [exact R|]. split; [exact NW|]. split; [exact P|]. split; [discriminate|].
  split; [constructor; [split; auto|constructor]|]. split; [exact TO'|]. split; [exact SR|].
  assert (MET : forall y, - (1) < y < 1 -> ~ (stopped (beam y) \/ no_hit asort [Leaf f b] (c_ray (beam y)))).
  { intros y Y [ST|NH].
    - unfold stopped, beam, vnorm, vdot, atol in ST; cbn [c_ray direction vector vx vy vz vw] in ST.
      replace (1 * 1 + 0 * 0 + 0 * 0 + 0 * 0) with 1 in ST by ring. rewrite sqrt_1 in ST. lra.
    - set (r := Ray (pt y 0 (0 - 5)) (V4 0 0 1 0)).
      assert (ER : ray_map (s_obj f) (c_ray (beam y)) = r).
      { unfold ray_map, beam; cbn [c_ray origin direction]. rewrite P3. change (point 0 y 0) with (pt 0 y 0). rewrite tobj_pt.
        change (vector 1 0 0) with (V4 1 0 0 0). rewrite tobj_vec. unfold r. rewrite !Rminus_0_r. reflexivity. }
      destruct (cylinder_hits_exact 1 (- (1) / 2) (1 / 2) true r) as [(t0 & t1 & H & L & S)|[_ S]].
      + unfold moving, r; cbn [direction vx vy vz]. lra.
      + lra.
      + unfold clear_ray, clear, r; cbn [direction vx vy vz]. split; [left; ring|right; rewrite Rabs_R1; unfold atol; lra].
      + assert (IN : forall u, solid cyl (ray_at r u) <-> 9 / 2 <= u <= 11 / 2).
        { intro u. unfold solid, cyl, ray_at, r, pt, vadd, vscale; cbn [origin direction vx vy vz]. split; [lra|]. intro U. split; [nra|lra]. }
        assert (B0 : 9 / 2 <= t0 <= 11 / 2) by (apply IN, S; lra).
        apply (NH 0%nat 0%nat t0 (s_id f)). exists (Leaf f b). split; [reflexivity|]. cbn [shape_intersect fst snd]. unfold surf_hits. rewrite ER, P1.
        assert (H2 : prim_hits cyl r = (Fin t0, Fin t1)) by exact H. rewrite H2.
        unfold sort2; cbn [fst snd]. replace (xsle (Fin t0) (Fin t1)) with true by (symmetry; apply rleb_true; lra).
        do 2 (split; [reflexivity|]). lra.
      + apply (S 5). unfold solid, ray_at, r, pt, vadd, vscale; cbn [origin direction vx vy vz]. split; [nra|lra]. }
  assert (SHP : map (shape_of h) (t_comps t) = map Some [Leaf f b]) by exact (proj1 (proj1 P)).
  intros i I E0.
  destruct i as [|[|[|i]]]; [| | |lia].
  - apply (no_row asort AS h beams 22 t t' _ TO' SHP 0%nat (beam 0)) in E0; [|rewrite SR; reflexivity]. apply (MET 0 ltac:(lra) E0).
  - apply (no_row asort AS h beams 22 t t' _ TO' SHP 1%nat (beam (1 / 2))) in E0; [|rewrite SR; reflexivity]. apply (MET (1 / 2) ltac:(lra) E0).
  - apply (no_row asort AS h beams 22 t t' _ TO' SHP 2%nat (beam (- (1 / 2)))) in E0; [|rewrite SR; reflexivity]. apply (MET (- (1 / 2)) ltac:(lra) E0).
Qed.
