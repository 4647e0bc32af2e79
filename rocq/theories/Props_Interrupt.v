(** * C130: movements that are interrupted *)
From Coq Require Import Reals List Bool Arith Lia Lra.
Import ListNotations.
From Verif Require Import XR XRFacts Arr Lin LinFacts OpsFacts Prim Csg Surf World SpecWorld SpecMove WorldFacts WorldFacts4 WorldExamples Interrupt.
Open Scope R_scope.

(** The movements that count: those whose first assignment took effect, the last on the left *)
Fixpoint carried_out (history : list (mat * nat)) (w : mat) : mat :=
  match history with
  | [] => w
  | (t, O) :: r => carried_out r w
  | (t, S _) :: r => carried_out r (mmul t w)
  end.
(** A surface's box is that of its shape where it is now *)
Definition box_is_current (o : obj) : Prop :=
  match o_kind o with KSurf p _ => o_box o = surf_box p (get_world_transform o) | _ => True end.
(** All that the getters return belongs to one transform *)
Definition whole (o : obj) : Prop := consistent o /\ box_is_current o.

Lemma dir_step o o' : set_direction o = Some o' ->
  / 10000000 <= vnorm (mapply (o_world o) (vector 0 0 1)) /\
  o' = with_dir (vscale (/ vnorm (mapply (o_world o) (vector 0 0 1))) (mapply (o_world o) (vector 0 0 1))) o.
Proof.
  unfold set_direction. change obj_direction with (vector 0 0 1). unfold rltb, dir_tolerance.
  destruct (Rlt_dec _ _) as [L|L]; [discriminate|]. intro E. injection E as <-. split; [lra|reflexivity].
Qed.
Lemma whole_after o w i p :
  is_inverse w i -> / 10000000 <= vnorm (mapply w (vector 0 0 1)) ->
  o_world o = w -> o_obj o = i -> o_origin o = mapply w (point 0 0 0) ->
  o_dir o = vscale (/ vnorm (mapply w (vector 0 0 1))) (mapply w (vector 0 0 1)) ->
  (p -> box_is_current o) -> p -> whole o.
Proof.
  intros HI HN Ew Ei Eo Ed Hb HP. split; [|apply Hb, HP].
  assert (N0 : 0 < vnorm (mapply w (vector 0 0 1))) by (pose proof (Rinv_0_lt_compat 10000000); lra).
  destruct HI as [I1 I2].
  unfold consistent, get_world_transform, get_object_transform, to_object_coordinates, to_world_coordinates,
    get_position, get_orientation. rewrite Ew, Ei, Eo, Ed.
  split; [split; assumption|].
  split; [intro v; rewrite <- mapply_mmul, I1; apply mapply_mid|].
  split; [intro v; rewrite <- mapply_mmul, I2; apply mapply_mid|].
  split; [reflexivity|].
  split.
  - rewrite vnorm_scale; [apply Rinv_l; lra|]. left. apply Rinv_0_lt_compat. exact N0.
  - exists (/ vnorm (mapply w (vector 0 0 1))). split; [apply Rinv_0_lt_compat; exact N0|reflexivity].
Qed.

Lemma movement_whole o t o' : movement t o = (true, o') ->
  o_kind o' = o_kind o /\ o_world o' = mmul t (o_world o) /\ can_take (o_world o') /\ whole o'.
Proof.
  unfold movement, assignments. cbn [app assign]. unfold set_world at 1, set_origin at 1. cbn [assign].
  intro H.
  match type of H with (match set_direction ?x with _ => _ end) = _ => set (o1 := x) in *; destruct (set_direction o1) as [o2|] eqn:D; [|discriminate H] end.
  apply dir_step in D. destruct D as [N ->]. cbn [o1 with_world with_origin with_dir o_world] in *.
  set (w := mmul t (o_world o)) in *. unfold set_inverse in H. cbn [o_world with_dir with_origin with_world o1] in H.
  change (o_world o1) with w in *.
  destruct (minv w) as [i|] eqn:I; [|discriminate H].
  pose proof (minv_some _ _ I) as HI.
  assert (CT : can_take w) by (split; [exists i; exact HI|exact N]).
  destruct (o_kind o) as [|p m|op l r|ms] eqn:K; cbn [app assign set_box] in H; injection H as <-; cbn.
  all: rewrite ?K; split; [reflexivity|]; split; [reflexivity|]; split; [exact CT|].
  all: eapply (whole_after _ w i True); try reflexivity; try assumption; intros _; unfold box_is_current; cbn; rewrite ?K; try reflexivity; exact Logic.I.
Qed.
Lemma movement_completes o t : can_take (mmul t (o_world o)) -> exists o', movement t o = (true, o').
Proof.
  intros [[i HI] HN]. unfold movement, assignments. cbn [app assign]. unfold set_world at 1, set_origin at 1.
  unfold set_direction. change obj_direction with (vector 0 0 1). cbn [o_world with_world with_origin].
  unfold rltb, dir_tolerance. destruct (Rlt_dec _ _) as [L|L]; [exfalso; lra|].
  unfold set_inverse. cbn [o_world with_world with_origin with_dir].
  apply minv_is_inverse in HI. rewrite HI.
  destruct (o_kind o); eexists; reflexivity.
Qed.
(** No later assignment touches the kind or the world transform *)
Definition keeps_place (a : assignment) : Prop :=
  forall o o', a o = Some o' -> o_kind o' = o_kind o /\ o_world o' = o_world o.
Lemma assign_keeps l : Forall keeps_place l -> forall o,
  o_kind (snd (assign l o)) = o_kind o /\ o_world (snd (assign l o)) = o_world o.
Proof.
  induction 1 as [|a l A F IH]; intro o; cbn [assign]; [split; reflexivity|].
  destruct (a o) as [o1|] eqn:E; [|split; reflexivity].
  destruct (A _ _ E) as [K W]. destruct (IH o1) as [K1 W1]. split; congruence.
Qed.
Lemma Forall_firstn {A : Type} (P : A -> Prop) k l : Forall P l -> Forall P (firstn k l).
Proof.
  intro H. revert k. induction H as [|a l Ha Hl IH]; intros [|k]; cbn [firstn]; constructor; auto.
Qed.
Lemma rest_keeps k : Forall keeps_place (set_origin :: set_direction :: set_inverse ::
  match k with KSurf p _ => [set_box p] | _ => [] end).
Proof.
  repeat apply Forall_cons.
  - intros o o' E. injection E as <-. split; reflexivity.
  - intros o o' E. apply dir_step in E. destruct E as [_ ->]. split; reflexivity.
  - intros o o' E. unfold set_inverse in E. destruct (minv _); [|discriminate]. injection E as <-. split; reflexivity.
  - destruct k; repeat constructor. all: injection H as <-; reflexivity.
Qed.
Lemma cut_place t k o :
  o_kind (cut_movement t k o) = o_kind o /\
  o_world (cut_movement t k o) = match k with O => o_world o | S _ => mmul t (o_world o) end.
Proof.
  unfold cut_movement, assignments. destruct k as [|k]; [split; reflexivity|].
  cbn [app firstn assign]. unfold set_world at 1. cbn [assign].
  destruct (assign_keeps _ (Forall_firstn _ k _ (rest_keeps (o_kind o))) (with_world (mmul t (o_world o)) o)) as [K W].
  unfold set_world. cbn iota. split; [rewrite K|rewrite W]; reflexivity.
Qed.
Lemma cuts_place history : forall o,
  o_kind (cut_movements history o) = o_kind o /\
  o_world (cut_movements history o) = carried_out history (o_world o).
Proof.
  induction history as [|[t k] r IH]; intro o; [split; reflexivity|].
  unfold cut_movements in *. cbn [fold_left fst snd].
  destruct (IH (cut_movement t k o)) as [K W]. destruct (cut_place t k o) as [K1 W1].
  split; [congruence|]. rewrite W, W1. destruct k; reflexivity.
Qed.

(** After any history of movements, each interrupted anywhere, a movement that is let finish
    puts everything right: it returns exactly when the transform it leads to can be taken;
    then all getters belong to that transform, which is made of the movements whose first
    assignment took effect.
    Missing from the full property: what the getters return until then. *)
Theorem C130_a_finished_movement_mends_partial : forall o history t,
  let w := mmul t (carried_out history (get_world_transform o)) in
  ((exists o', movement t (cut_movements history o) = (true, o')) <-> can_take w) /\
  (forall o', movement t (cut_movements history o) = (true, o') ->
     get_world_transform o' = w /\ o_kind o' = o_kind o /\ whole o').
Proof.
  intros o history t w. destruct (cuts_place history o) as [K W].
  split; [split|].
  - intros [o' H]. apply movement_whole in H. destruct H as (_ & W' & C & _).
    rewrite W', W in C. exact C.
  - intro C. apply movement_completes. rewrite W. exact C.
  - intros o' H. apply movement_whole in H. destruct H as (K' & W' & _ & H).
    unfold get_world_transform. rewrite W', W. split; [reflexivity|]. split; [congruence|exact H].
Qed.
Print Assumptions C130_a_finished_movement_mends_partial.

Lemma movement_eq t o : movement t o =
  let w := mmul t (o_world o) in
  let o1 := with_origin (mapply w obj_origin) (with_world w o) in
  let d := mapply w obj_direction in
  if rltb (vnorm d) dir_tolerance then (false, o1)
  else
    let o2 := with_dir (vscale (/ vnorm d) d) o1 in
    match minv w with
    | None => (false, o2)
    | Some i =>
        (true, match o_kind o with KSurf p _ => with_box (surf_box p w) (with_obj i o2) | _ => with_obj i o2 end)
    end.
Proof.
  unfold movement, assignments. cbv zeta. cbn [app assign]. unfold set_world, set_origin, set_direction, set_inverse.
  cbv beta iota zeta. cbn [o_world with_world with_origin].
  destruct (rltb _ _); [reflexivity|]. cbn [o_world with_dir with_world with_origin].
  destruct (minv _); [|reflexivity]. destruct (o_kind o); reflexivity.
Qed.
(** A movement that is let finish is the one of World.v. *)
Theorem C130_same_movements : forall asort h l o t,
  get h l = Some o ->
  o_watch o = (HMat l :: match o_kind o with KSurf _ _ => [HLeafBox l] | _ => [] end)%list ->
  match append_own asort l t h with
  | Ok h' => get h' l = Some (snd (movement t o)) /\ fst (movement t o) = true
  | Raise _ h' => get h' l = Some (snd (movement t o)) /\ fst (movement t o) = false
  | Diverge => False
  end.
Proof.
  intros asort h l o t G E.
  assert (U : forall h f o, get h l = Some o -> get (upd h l f) l = Some (f o)).
  { intros. apply get_upd_same. assumption. }
  unfold append_own. rewrite G, E. cbn [run_all run_handler].
  set (w := mmul t (o_world o)).
  rewrite (U _ _ _ G). cbn [o_world with_world].
  rewrite movement_eq. cbv zeta. fold w.
  destruct (rltb (vnorm (mapply w obj_direction)) dir_tolerance) eqn:N; cbn [bind fst snd].
  - split; [|reflexivity]. erewrite U; [|apply U; exact G]. reflexivity.
  - destruct (minv w) as [i|] eqn:I; cbn [bind fst snd].
    + destruct (o_kind o) as [|p m|op a b|ms] eqn:K; cbn [run_all run_handler bind].
      2: { erewrite U; [|apply U; apply U; apply U; exact G].
           cbn [o_kind with_obj with_dir with_origin with_world o_world bind]. rewrite K. cbn [bind].
           split; [|reflexivity].
           erewrite U; [|apply U; apply U; apply U; apply U; exact G]. reflexivity. }
      all: split; [|reflexivity]; (erewrite U; [|apply U; apply U; apply U; exact G]); reflexivity.
    + split; [|reflexivity]. erewrite U; [|apply U; apply U; exact G]. reflexivity.
Qed.
Print Assumptions C130_same_movements.

(** Leaving a [pin] context mends too: however the object was moved inside, and wherever the
    last or any other movement was interrupted, [__exit__] brings the object back whole to
    the transform it had on entry, unless it had been given a transform without inverse. *)
Theorem C130_pin_mends : forall o history,
  can_take (get_world_transform o) ->
  (exists i, is_inverse (carried_out history (get_world_transform o)) i) ->
  exists o', pin_back (get_world_transform o) (cut_movements history o) = Some (true, o') /\
    get_world_transform o' = get_world_transform o /\ o_kind o' = o_kind o /\ whole o'.
Proof.
  intros o history C [i HI]. destruct (cuts_place history o) as [K W]. unfold get_world_transform in *.
  destruct C as [[si HS] N]. unfold pin_back. pose proof HS as HS'. apply minv_is_inverse in HS'. rewrite HS', W.
  assert (X : is_inverse (mmul (carried_out history (o_world o)) si) (mmul (o_world o) i)).
  { destruct HS as [S1 S2], HI as [I1 I2]. split.
    - rewrite mmul_assoc, <- (mmul_assoc i), I1, mmul_mid_l. exact S2.
    - rewrite mmul_assoc, <- (mmul_assoc si), S1, mmul_mid_l. exact I2. }
  apply minv_is_inverse in X. rewrite X.
  pose proof (pin_step _ _ _ _ HS X) as P.
  destruct (movement_completes (cut_movements history o) (mmul (o_world o) i)) as [o' M].
  { rewrite W, P. split; [exists si; exact HS|exact N]. }
  exists o'. rewrite M. split; [reflexivity|].
  apply movement_whole in M. destruct M as (K' & W' & _ & H). rewrite W', W, P.
  split; [reflexivity|]. split; [congruence|exact H].
Qed.
Print Assumptions C130_pin_mends.

(** Until then the getters disagree: a cube whose move is interrupted after the first
    assignment says by its world transform that it has moved, by its position that it has not,
    and by its object transform that it has not. *)
Definition fresh_cube : obj :=
  Obj 0 (KSurf unit_cube Absorber) mid mid (point 0 0 0) (vector 0 0 1) [HMat 0%nat; HLeafBox 0%nat]
      (surf_box unit_cube mid) 1.
Theorem C130_interrupted_movements_refuted :
  whole fresh_cube /\
  exists t, motion_matrix (Move 3 0 0) = Some t /\
  forall k, (1 <= k <= 3)%nat ->
    let o := cut_movement t k fresh_cube in
    get_world_transform o = shift 3 0 0 /\ get_object_transform o = mid /\ ~ consistent o.
Proof.
  split.
  - split; [|reflexivity]. unfold consistent, fresh_cube, get_world_transform, get_object_transform,
      to_object_coordinates, to_world_coordinates, get_position, get_orientation. cbn [o_world o_obj o_origin o_dir].
    split; [split; apply mmul_mid_l|].
    split; [intro v; rewrite !mapply_mid; reflexivity|].
    split; [intro v; rewrite !mapply_mid; reflexivity|].
    rewrite !mapply_mid. split; [reflexivity|].
    split; [exact unit_norm|]. exists 1. split; [lra|]. unfold vscale, vector. cbn. f_equal; ring.
  - exists (shift 3 0 0). split; [reflexivity|]. intros k Hk o.
    assert (W : get_world_transform o = shift 3 0 0).
    { unfold o, get_world_transform. rewrite (proj2 (cut_place (shift 3 0 0) k fresh_cube)).
      destruct k; [lia|]. unfold fresh_cube. cbn [o_world]. apply mmul_mid_r. }
    assert (J : get_object_transform o = mid).
    { unfold o, get_object_transform, cut_movement, assignments.
      destruct k as [|[|[|[|k]]]]; try lia; cbn [firstn app assign set_world set_origin].
      - reflexivity.
      - reflexivity.
      - match goal with |- context [set_direction ?x] => destruct (set_direction x) as [o2|] eqn:D end; [|reflexivity].
        apply dir_step in D. destruct D as [_ ->]. reflexivity. }
    split; [exact W|]. split; [exact J|]. intros [[H _] _]. rewrite W, J in H.
    rewrite mmul_mid_l in H. rewrite mid_shift in H. assert (X := f_equal (fun m => vw (row0 m)) H).
    cbn [shift row0 vw] in X. lra.
Qed.
Print Assumptions C130_interrupted_movements_refuted.

(** A cube is moved, the second movement interrupted after two assignments and the third
    before its first; the fourth is let finish. *)
Example C130_history : exists o',
  movement (shift 0 5 0) (cut_movements [(shift 1 0 0, 5); (shift 2 0 0, 2); (shift 0 0 9, 0)]%nat fresh_cube) = (true, o') /\
  get_world_transform o' = shift 3 5 0 /\ get_position o' = point 3 5 0 /\ whole o'.
Proof.
  destruct (C130_a_finished_movement_mends_partial fresh_cube
    [(shift 1 0 0, 5); (shift 2 0 0, 2); (shift 0 0 9, 0)]%nat (shift 0 5 0)) as [C H].
  assert (W : mmul (shift 0 5 0) (carried_out [(shift 1 0 0, 5); (shift 2 0 0, 2); (shift 0 0 9, 0)]%nat
                (get_world_transform fresh_cube)) = shift 3 5 0).
  { unfold get_world_transform, fresh_cube. cbn [carried_out o_world]. rewrite mmul_mid_r.
    rewrite !shift_mul. f_equal; ring. }
  rewrite W in C, H.
  destruct (proj2 C) as [o' E].
  { split; [exists (shift (-3) (-5) (-0)); apply minv_some; apply shift_inv|].
    rewrite (shift_dir 3 5 0 : mapply _ (vector 0 0 1) = _), unit_norm. lra. }
  exists o'. split; [exact E|]. destruct (H o' E) as (W' & _ & Wh). split; [exact W'|]. split; [|exact Wh].
  destruct Wh as [(_ & _ & _ & P & _) _]. rewrite P. unfold to_world_coordinates, get_world_transform in *. rewrite W'.
  exact (shift_org 3 5 0).
Qed.

(** The same, pinned, with the last movement interrupted *)
Example C130_pinned : exists o',
  pin_back (get_world_transform fresh_cube)
    (cut_movements [(shift 1 0 0, 5); (shift 2 0 0, 2)]%nat fresh_cube) = Some (true, o') /\
  get_world_transform o' = mid /\ whole o' /\
  ~ consistent (cut_movements [(shift 1 0 0, 5); (shift 2 0 0, 1)]%nat fresh_cube).
Proof.
  destruct (C130_pin_mends fresh_cube [(shift 1 0 0, 5); (shift 2 0 0, 2)]%nat) as (o' & E & W & _ & H).
  - split; [exists mid; split; apply mmul_mid_l|]. unfold get_world_transform, fresh_cube. cbn [o_world].
    rewrite mapply_mid, unit_norm. lra.
  - exists (shift (- (2 + 1)) (- (0 + 0)) (- (0 + 0))). apply minv_some. unfold get_world_transform, fresh_cube.
    cbn [o_world carried_out]. rewrite mmul_mid_r, shift_mul. apply shift_inv.
  - exists o'. split; [exact E|]. split; [exact W|]. split; [exact H|].
    unfold cut_movements. cbn [fold_left fst snd]. set (o1 := cut_movement (shift 1 0 0) 5 fresh_cube).
    assert (W1 : o_world o1 = shift 1 0 0).
    { unfold o1. rewrite (proj2 (cut_place _ _ _)). unfold fresh_cube. cbn [o_world]. apply mmul_mid_r. }
    intros [_ [_ [_ [P _]]]]. unfold get_position, to_world_coordinates in P.
    rewrite (proj2 (cut_place _ _ _)), W1, shift_mul in P.
    assert (Q : o_origin o1 = mapply (shift 1 0 0) (point 0 0 0)).
    { unfold o1, cut_movement. cbn [firstn assignments o_kind fresh_cube app].
      change (assign _ _) with (movement (shift 1 0 0) fresh_cube).
      rewrite movement_eq. cbv zeta. unfold fresh_cube. cbn [o_world]. rewrite mmul_mid_r.
      destruct (rltb _ _); [reflexivity|]. destruct (minv _); reflexivity. }
    assert (Q2 : o_origin (cut_movement (shift 2 0 0) 1 o1) = o_origin o1) by (unfold cut_movement; reflexivity).
    rewrite Q2, Q in P. rewrite (shift_org 1 0 0 : mapply _ (point 0 0 0) = _) in P.
    rewrite (shift_org (2 + 1) (0 + 0) (0 + 0) : mapply _ (point 0 0 0) = _) in P.
    apply (f_equal vx) in P. cbn [point vx] in P. lra.
Qed.
