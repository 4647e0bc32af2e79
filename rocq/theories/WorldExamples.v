(** * WorldExamples: concrete programs over world objects *)
From Coq Require Import Reals List Bool ZArith Lra Lia.
Import ListNotations.
From Verif Require Import XR XRFacts Arr Lin LinFacts Prim Csg Surf SpecGeom SpecTree SpanFacts BoxFacts UnionFacts CsgProps
  World SpecWorld WorldFacts WorldFacts2 WorldFacts3 WorldFacts4 WorldFacts5.
Open Scope R_scope.

(** ** computing with translations *)
Definition shift (x y z : R) : mat := M4 (V4 1 0 0 x) (V4 0 1 0 y) (V4 0 0 1 z) (V4 0 0 0 1).
Lemma shift_mul : forall a b c x y z, mmul (shift a b c) (shift x y z) = shift (a + x) (b + y) (c + z).
Proof. intros. unfold shift, mmul, mtrans, mapply, vdot; cbn [row0 row1 row2 row3 vx vy vz vw]. apply mat_eq; cbn [row0 row1 row2 row3]; apply v4_eq; cbn [vx vy vz vw]; ring. Qed.
Lemma mid_shift : mid = shift 0 0 0. Proof. reflexivity. Qed.
Lemma shift_inv : forall x y z, minv (shift x y z) = Some (shift (- x) (- y) (- z)).
Proof.
  intros x y z. unfold minv. assert (D : mdet (shift x y z) = 1) by (unfold mdet, shift; cbn [row0 row1 row2 row3 vx vy vz vw]; ring).
  rewrite D. destruct (Req_EM_T 1 0) as [E|_]; [lra|]. f_equal. rewrite Rinv_1.
  apply mat_eq; unfold mscale, madj, shift, vscale; cbn [row0 row1 row2 row3 vx vy vz vw]; apply v4_eq; cbn [vx vy vz vw]; ring.
Qed.
Lemma shift_dir : forall x y z, mapply (shift x y z) obj_direction = vector 0 0 1.
Proof. intros. unfold mapply, shift, obj_direction, vector, vdot; cbn [row0 row1 row2 row3 vx vy vz vw]. apply v4_eq; cbn [vx vy vz vw]; ring. Qed.
Lemma shift_org : forall x y z, mapply (shift x y z) obj_origin = point x y z.
Proof. intros. unfold mapply, shift, obj_origin, point, vdot; cbn [row0 row1 row2 row3 vx vy vz vw]. apply v4_eq; cbn [vx vy vz vw]; ring. Qed.
Lemma unit_norm : vnorm (vector 0 0 1) = 1.
Proof. unfold vnorm, vdot, vector; cbn [vx vy vz vw]. replace (_ + _) with (1 * 1) by ring. rewrite sqrt_square; lra. Qed.

(** what the matrix handler leaves behind for a translated object *)
Definition settle (x y z : R) (o : obj) : obj :=
  Obj (o_id o) (o_kind o) (o_world o) (shift (- x) (- y) (- z)) (point x y z) (vector 0 0 1) (o_watch o) (o_box o) (o_nscale o).
Lemma list_upd_twice : forall (A : Type) (f g : A -> A) l i, list_upd (list_upd l i f) i g = list_upd l i (fun o => g (f o)).
Proof. intros A f g. induction l as [|a l IH]; intros [|i]; simpl; auto. rewrite IH. auto. Qed.
Lemma list_upd_ext : forall (A : Type) (f g : A -> A), (forall o, f o = g o) -> forall l i, list_upd l i f = list_upd l i g.
Proof. intros A f g E. induction l as [|a l IH]; intros [|i]; simpl; auto; [rewrite E|rewrite IH]; auto. Qed.
Lemma hmat_shift : forall asort l h o x y z, get h l = Some o -> o_world o = shift x y z ->
  run_handler asort (HMat l) h = Ok (upd h l (settle x y z)).
Proof.
  intros asort l h o x y z G W. simpl. rewrite G, W, shift_dir, shift_org, unit_norm, shift_inv.
  assert (E : rltb 1 dir_tolerance = false) by (apply rltb_false; unfold dir_tolerance; lra). rewrite E. f_equal. unfold upd.
  cbn [h_objs h_next]. rewrite !list_upd_twice. f_equal. apply list_upd_ext. intros [i k w ob og d wa b n].
  unfold settle, with_obj, with_dir, with_origin. cbn [o_id o_kind o_world o_obj o_origin o_dir o_watch o_box o_nscale].
  f_equal. unfold vscale, vector. cbn [vx vy vz vw]. rewrite Rinv_1. apply v4_eq; cbn [vx vy vz vw]; ring.
Qed.
Lemma move_matrix : forall x y z, motion_matrix (Move x y z) = Some (shift x y z).
Proof. reflexivity. Qed.

(** the unit cube used in the examples *)
Definition unit_cube : prim := PCube (0, 0, 0) (1, 1, 1).

(* one step: reduce, replace the next matrix handler by its effect *)
Ltac hmat := 
  match goal with
  | |- context [run_handler ?a (HMat ?l) ?h] =>
      erewrite (hmat_shift a l h); [|reflexivity|reflexivity]
  end.
Ltac redc := cbv beta iota zeta delta [unit_cube get nth_error upd list_upd h_objs h_next bind run_all each children append_own transform
  o_id o_kind o_world o_obj o_origin o_dir o_watch o_box o_nscale
  with_world with_obj with_origin with_dir with_watch with_box with_nscale with_members settle
  app fresh alloc length depth box_of empty_heap valid_locs forallb Nat.ltb Nat.leb andb negb attach_to set_normals
  new_csg new_surface new_group new_plain prim_init run_call run_prog apply_motion pin_enter pin_exit map option_map];
  rewrite ?move_matrix, ?mid_shift, ?shift_mul, ?shift_inv, ?Rplus_0_r, ?Ropp_0.
Lemma hleaf : forall asort l h, run_handler asort (HLeafBox l) h =
  match get h l with
  | Some o => match o_kind o with
              | KSurf p _ => Ok (upd h l (with_box (surf_box p (o_world o))))
              | _ => Raise AttributeError h end
  | None => Raise AttributeError h end.
Proof. reflexivity. Qed.
Lemma hcsg : forall asort l h, run_handler asort (HCsgBox l) h =
  match get h l with
  | Some o => match o_kind o with
              | KCsg op lc rc =>
                  match box_of h lc, box_of h rc with
                  | Some a, Some b => Ok (upd h l (with_box (csg_box asort op a b)))
                  | _, _ => Raise AttributeError h end
              | _ => Raise AttributeError h end
  | None => Raise AttributeError h end.
Proof. reflexivity. Qed.
Ltac go := repeat (progress (redc; rewrite ?hleaf, ?hcsg) || hmat); redc.


Lemma cube_box_at : forall x y z, surf_box (PCube (0, 0, 0) (1, 1, 1)) (shift x y z) =
  Box (Fin x, Fin (x + 1)) (Fin y, Fin (y + 1)) (Fin z, Fin (z + 1)).
Proof.
  intros x y z. unfold surf_box. rewrite bounding_box_spans by (intro E; apply map_eq_nil in E; revert E; apply bounding_points_nonempty).
  unfold bounding_points, prim_corners, corner_points. rewrite !Rmin_left, !Rmax_right by lra.
  cbn [flat_map map app]. unfold mapply, shift, point, vdot. cbn [row0 row1 row2 row3 vx vy vz vw].
  f_equal; f_equal; f_equal; (apply list_min_eq || apply list_max_eq);
    try (intros y0 Hy; cbn [In] in Hy; repeat (destruct Hy as [<-|Hy]; [lra|]); destruct Hy).
  - left. ring.
  - do 4 right. left. ring.
  - left. ring.
  - do 2 right. left. ring.
  - left. ring.
  - right. left. ring.
Qed.
Lemma cube_box_start : bounding_box (bounding_points (PCube (0, 0, 0) (1, 1, 1))) = Box (Fin 0, Fin (0 + 1)) (Fin 0, Fin (0 + 1)) (Fin 0, Fin (0 + 1)).
Proof.
  rewrite surf_box_start, mid_shift, cube_box_at. auto.
Qed.
Lemma cube_placed : forall i x y z ob n m q, vw q = 1 -> x <= vx q <= x + 1 -> y <= vy q <= y + 1 -> z <= vz q <= z + 1 ->
  placed (Surf i (PCube (0, 0, 0) (1, 1, 1)) (shift x y z) ob n m) q.
Proof.
  intros i x y z ob n m [a b c w] W X Y Z. cbn [vx vy vz vw] in *. subst w. exists (point (a - x) (b - y) (c - z)). split; [reflexivity|]. split.
  - simpl. unfold between. rewrite !Rmin_left, !Rmax_right by lra. lra.
  - unfold mapply, shift, point, vdot. cbn [row0 row1 row2 row3 vx vy vz vw s_world]. apply v4_eq; cbn [vx vy vz vw]; ring.
Qed.
Lemma union_same : forall asort x y z, argsort_ok asort ->
  csg_box asort UNION (Box (Fin x, Fin (x + 1)) (Fin y, Fin (y + 1)) (Fin z, Fin (z + 1)))
                      (Box (Fin x, Fin (x + 1)) (Fin y, Fin (y + 1)) (Fin z, Fin (z + 1))) =
  Box (Fin x, Fin (x + 1)) (Fin y, Fin (y + 1)) (Fin z, Fin (z + 1)).
Proof.
  intros asort x y z AS. cbn [csg_box spanx spany spanz].
  rewrite !union_overlap; auto; try lra; try (rewrite Rmax_left, Rmin_left by lra; lra).
  rewrite !Rmin_left, !Rmax_left by lra. auto.
Qed.
Lemma union_beside : forall asort x x' y z, argsort_ok asort -> x' + 1 < x ->
  csg_box asort UNION (Box (Fin x, Fin (x + 1)) (Fin y, Fin (y + 1)) (Fin z, Fin (z + 1)))
                      (Box (Fin x', Fin (x' + 1)) (Fin y, Fin (y + 1)) (Fin z, Fin (z + 1))) =
  Box (Fin x', Fin (x' + 1)) (Fin y, Fin (y + 1)) (Fin z, Fin (z + 1)).
Proof.
  intros asort x x' y z AS L. cbn [csg_box spanx spany spanz]. rewrite union_apart_r by (auto; lra).
  rewrite !union_overlap; auto; try lra; try (rewrite Rmax_left, Rmin_left by lra; lra).
  rewrite !Rmin_left, !Rmax_left by lra. auto.
Qed.

Lemma some_inj : forall (A : Type) (x y : A), Some x = Some y -> x = y.
Proof. congruence. Qed.

(** ** three unit cubes: outer = union a (union b c) *)
Definition cubes3 : list call :=
  [CSurface unit_cube Absorber; CSurface unit_cube Absorber; CSurface unit_cube Absorber;
   CCsg UNION 1%nat 2%nat; CCsg UNION 0%nat 3%nat].
Lemma stale_root : forall asort, argsort_ok asort -> exists h h' s q,
  run_prog asort cubes3 empty_heap = Ok h /\ NoDup (parts h 4%nat) /\ apply_motion asort 4%nat (Move 10 0 0) h = Ok h' /\
  ~ box_current asort h' 4%nat /\ shape_of h' 4%nat = Some s /\ inside s q /\ ~ in_box (shape_box s) q.
Proof.
  intros asort AS. eexists. eexists. eexists. exists (point (21 / 2) (1 / 2) (1 / 2)).
  split; [unfold cubes3; go; reflexivity|].
  split; [cbn; repeat constructor; cbn; intuition discriminate|].
  split; [go; reflexivity|].
  split; [|split; [reflexivity|split]].
  - intro C. destruct (C _ _ _ _ eq_refl eq_refl) as (a & b & A & B & E). cbn [box_of get nth_error h_objs o_kind o_box] in A, B. apply some_inj in A. apply some_inj in B. subst a b.
    cbn [o_box] in E. rewrite !cube_box_at, cube_box_start, !union_same, union_beside in E by (auto; lra).
    injection E as E. lra.
  - left. apply cube_placed; cbn; lra.
  - cbn [shape_box]. rewrite !cube_box_at, cube_box_start, !union_same, union_beside by (auto; lra).
    intros [[_ X] _]. cbn [spanx snd point vx xleb] in X. apply rleb_true in X. lra.
Qed.

(** outer = union (union a b) c, and then a is moved alone *)
Definition cubes3' : list call :=
  [CSurface unit_cube Absorber; CSurface unit_cube Absorber; CSurface unit_cube Absorber;
   CCsg UNION 0%nat 1%nat; CCsg UNION 3%nat 2%nat].
Lemma stale_enclosing : forall asort, argsort_ok asort -> exists h h' s q,
  run_prog asort cubes3' empty_heap = Ok h /\ NoDup (parts h 4%nat) /\ In 0%nat (parts h 4%nat) /\
  apply_motion asort 0%nat (Move (1 / 2) 0 0) h = Ok h' /\
  ~ box_current asort h' 4%nat /\ shape_of h' 4%nat = Some s /\ inside s q /\ ~ in_box (shape_box s) q.
Proof.
  intros asort AS. eexists. eexists. eexists. exists (point (5 / 4) (1 / 2) (1 / 2)).
  split; [unfold cubes3'; go; reflexivity|].
  split; [cbn; repeat constructor; cbn; intuition discriminate|].
  split; [cbn; auto|].
  split; [go; reflexivity|].
  assert (O : csg_box asort UNION (Box (Fin (1 / 2), Fin (1 / 2 + 1)) (Fin 0, Fin (0 + 1)) (Fin 0, Fin (0 + 1)))
                      (Box (Fin 0, Fin (0 + 1)) (Fin 0, Fin (0 + 1)) (Fin 0, Fin (0 + 1))) =
     Box (Fin 0, Fin (1 / 2 + 1)) (Fin 0, Fin (0 + 1)) (Fin 0, Fin (0 + 1))).
  { cbn [csg_box spanx spany spanz].
    rewrite !union_overlap; auto; try lra; try (rewrite Rmax_left, Rmin_left by lra; lra); try (rewrite Rmax_left, Rmin_right by lra; lra).
    rewrite !Rmax_left by lra. rewrite Rmin_right by lra. rewrite !Rmin_left by lra. auto. }
  assert (O2 : csg_box asort UNION (Box (Fin 0, Fin (1 / 2 + 1)) (Fin 0, Fin (0 + 1)) (Fin 0, Fin (0 + 1)))
                      (Box (Fin 0, Fin (0 + 1)) (Fin 0, Fin (0 + 1)) (Fin 0, Fin (0 + 1))) =
     Box (Fin 0, Fin (1 / 2 + 1)) (Fin 0, Fin (0 + 1)) (Fin 0, Fin (0 + 1))).
  { cbn [csg_box spanx spany spanz].
    rewrite !union_overlap; auto; try lra; try (rewrite Rmax_left, Rmin_left by lra; lra); try (rewrite Rmax_left, Rmin_right by lra; lra).
    rewrite !Rmax_left by lra. rewrite !Rmin_left by lra. auto. }
  split; [|split; [reflexivity|split]].
  - intro C. destruct (C _ _ _ _ eq_refl eq_refl) as (a & b & A & B & E). cbn [box_of get nth_error h_objs o_kind o_box] in A, B. apply some_inj in A. apply some_inj in B. subst a b.
    cbn [o_box] in E. rewrite ?cube_box_at, cube_box_start, O, O2, !union_same in E by auto.
    injection E as E. lra.
  - left. left. apply cube_placed; cbn; lra.
  - cbn [shape_box]. rewrite ?cube_box_at, cube_box_start, !union_same by auto.
    intros [[_ X] _]. cbn [spanx snd point vx xleb] in X. apply rleb_true in X. lra.
Qed.

(** union(s, s): the shared operand moves twice *)
Lemma shared_twice : forall asort, exists h h' o o',
  run_prog asort [CSurface unit_cube Absorber; CCsg UNION 0%nat 0%nat] empty_heap = Ok h /\
  apply_motion asort 1%nat (Move 1 0 0) h = Ok h' /\
  get h 0%nat = Some o /\ get h' 0%nat = Some o' /\ get_position o = point 0 0 0 /\ get_position o' = point 2 0 0.
Proof.
  intro asort. do 4 eexists. split; [go; reflexivity|]. split; [go; reflexivity|].
  split; [reflexivity|]. split; [reflexivity|]. split; [reflexivity|]. cbn. f_equal; ring.
Qed.

(** pin(child, parent): the child ends up displaced *)
Lemma pin_child_first : forall asort, exists h h1 h2 o o2,
  run_prog asort [CSurface unit_cube Absorber; CSurface unit_cube Absorber; CCsg UNION 0%nat 1%nat] empty_heap = Ok h /\
  apply_motion asort 2%nat (Move 1 0 0) h = Ok h1 /\
  pin_exit asort [0; 2]%nat (pin_enter h [0; 2]%nat) h1 = Ok h2 /\
  get h 0%nat = Some o /\ get h2 0%nat = Some o2 /\ get_position o = point 0 0 0 /\ get_position o2 = point (-1) 0 0.
Proof.
  intro asort. do 5 eexists. split; [go; reflexivity|]. split; [go; reflexivity|]. split.
  - go. reflexivity.
  - split; [reflexivity|]. split; [reflexivity|]. split; [reflexivity|]. cbn. f_equal; ring.
Qed.

(** scale(0, 1, 1) raises and leaves the object half changed *)
Lemma half_scaled : forall asort, exists h h' o o',
  run_prog asort [CSurface unit_cube Absorber] empty_heap = Ok h /\
  apply_motion asort 0%nat (Scale 0 1 1) h = Raise LinAlgError h' /\
  get h 0%nat = Some o /\ get h' 0%nat = Some o' /\
  get_world_transform o = mid /\ get_world_transform o' <> mid /\
  get_object_transform o' = mid /\ ~ consistent o'.
Proof.
  intro asort. do 4 eexists. split; [go; reflexivity|].
  assert (M : motion_matrix (Scale 0 1 1) = Some (M4 (V4 0 0 0 0) (V4 0 1 0 0) (V4 0 0 1 0) (V4 0 0 0 1))).
  { simpl. assert (E : rltb 0 0 = false) by (apply rltb_false; lra). assert (E' : rltb 1 0 = false) by (apply rltb_false; lra). rewrite E, E'. auto. }
  set (t := M4 _ _ _ _) in M.
  assert (T : mmul t (shift 0 0 0) = t) by (change (shift 0 0 0) with mid; apply mmul_mid_r).
  assert (D : mapply t obj_direction = vector 0 0 1).
  { unfold mapply, t, obj_direction, vector, vdot; cbn [row0 row1 row2 row3 vx vy vz vw]. apply v4_eq; cbn [vx vy vz vw]; ring. }
  assert (I : minv t = None).
  { unfold minv. destruct (Req_EM_T (mdet t) 0) as [_|N]; auto. exfalso. apply N. unfold mdet, t. cbn [row0 row1 row2 row3 vx vy vz vw]. ring. }
  split; [|split; [reflexivity|]].
  - unfold apply_motion. rewrite M. redc. rewrite T. cbn [run_handler get nth_error h_objs o_world]. rewrite D, unit_norm, I.
    assert (E : rltb 1 dir_tolerance = false) by (apply rltb_false; unfold dir_tolerance; lra). rewrite E. redc. reflexivity.
  - split; [reflexivity|]. split; [reflexivity|]. cbn [get_world_transform get_object_transform o_world o_obj].
    assert (NT : t <> mid) by (intro E; apply (f_equal (fun m => vx (row0 m))) in E; cbn in E; lra).
    split; [exact NT|]. split; [reflexivity|]. intros ((C & _) & _). cbn [get_world_transform get_object_transform o_world o_obj] in C.
    change (shift 0 0 0) with mid in C. rewrite mmul_mid_l in C. auto.
Qed.

(** a - (b - c): the surface of c is subtracted twice, but inverted *)
Definition nested : expr := EBin DIFFERENCE (EPrim (PSphere 3) Mirror) (EBin DIFFERENCE (EPrim (PSphere 2) Mirror) (EPrim (PSphere 1) Mirror)).
Lemma nested_normals : forall asort, exists h s,
  run_prog asort (fst (calls nested 0)) empty_heap = Ok h /\ shape_of h (snd (calls nested 0)) = Some s /\
  subtractions 0 nested = [0; 1; 2]%nat /\ map s_nscale (surface_ids s) = [1; -1; -1].
Proof.
  intro asort. do 2 eexists. split; [cbv [nested calls fst snd app]; go; reflexivity|]. split; [reflexivity|]. split; reflexivity.
Qed.
(** (a - b) + (c & d), then - e *)
Definition solid4 : expr := EBin DIFFERENCE
  (EBin UNION (EBin DIFFERENCE (EPrim (PSphere 3) Mirror) (EPrim (PSphere 2) Mirror))
              (EBin INTERSECT (EPrim unit_cube Mirror) (EPrim (PSphere 1) Mirror))) (EPrim (PCylinder 1 0 1 true) Mirror).
Lemma solid4_ok : forall asort, exists h s, run_prog asort (fst (calls solid4 0)) empty_heap = Ok h /\
  shape_of h (snd (calls solid4 0)) = Some s /\ Forall (fun k => (k <= 1)%nat) (subtractions 0 solid4) /\
  subtractions 0 solid4 = [0; 1; 0; 0; 1]%nat.
Proof.
  intro asort. do 2 eexists. split; [cbv [solid4 calls fst snd app]; go; reflexivity|]. split; [reflexivity|].
  split; [repeat constructor|reflexivity].
Qed.

(** a lens-like program: two spheres, their intersection, a hole, and a group *)
Definition workshop : list call :=
  [CSurface (PSphere 3) Mirror; CSurface (PSphere 2) Mirror; CCsg INTERSECT 0%nat 1%nat;
   CSurface (PCylinder 1 0 1 true) Mirror; CCsg DIFFERENCE 2%nat 3%nat; CPlain; CGroup [4; 5]%nat].
Lemma workshop_ok : forall asort, exists h, run_prog asort workshop empty_heap = Ok h /\
  (exists s, shape_of h 4%nat = Some s) /\ NoDup (parts h 4%nat) /\ parts h 4%nat = [4; 2; 0; 1; 3]%nat /\
  right_simple h 4%nat /\ NoDup (parts h 6%nat) /\ parts h 6%nat = [6; 4; 2; 0; 1; 3; 5]%nat.
Proof.
  intro asort. eexists. split; [unfold workshop; go; reflexivity|]. split; [eexists; reflexivity|].
  split; [cbn; repeat constructor; cbn; intuition discriminate|]. split; [reflexivity|].
  split.
  - intros x o op a b I G K. cbn in I.
    repeat (destruct I as [<-|I]; [cbn in G; injection G as <-; cbn in K; try discriminate; injection K as <- <- <-|]); try destruct I.
    + left; auto.
    + right. do 3 eexists. split; reflexivity.
  - split; [cbn; repeat constructor; cbn; intuition discriminate|reflexivity].
Qed.
Lemma workshop_calls : Forall no_set workshop /\ Forall ok_call workshop /\ Forall still workshop.
Proof. repeat split; repeat constructor; simpl; try lra. Qed.
