(** * SymmetryProps: traces of symmetric scenes *)
From Coq Require Import Reals List Bool ZArith Lra Lia Arith.
Import ListNotations.
From Verif Require Import XR XRFacts Arr Lin LinFacts Ops Prim Csg CsgProps Surf World Tracer SpecTrace TraceFacts5 TraceFacts8 TraceProps SpecOptics SpecMotion MotionFacts MotionFacts2 MotionFacts3 MotionProps
  SpecSymmetry SymmetryFacts.
Open Scope R_scope.

Lemma history_with_id : forall asort comps surfaces limit j g c rows, history asort comps surfaces limit g c rows ->
  history asort comps surfaces limit g (with_id j c) (map (row_with_id j) rows).
Proof.
  intros asort comps surfaces limit j g c rows H. induction H as [g c G L|g c S|g c t sid s c' rows B NS F I E M HI IH]; cbn [map].
  - apply History_limit; auto.
  - apply History_stopped; auto.
  - apply (History_hit asort comps surfaces limit g (with_id j c) t sid s (with_id j c')); auto.
    clear - M. unfold material_trace in *. cbn [forward with_id c_ray c_wl c_idx with_ray] in *.
    destruct (s_mat s) as [| |ix|]; try discriminate.
    + injection M as <-. reflexivity.
    + destruct (world_normal s _); [|discriminate]. injection M as <-. reflexivity.
    + destruct (world_normal s _); [|discriminate]. destruct (ix (c_wl c)); try discriminate.
      destruct (refract _ _ _ _ _) as [[d k]|]; [|discriminate]. injection M as <-. reflexivity.
Qed.

(** the images of rays leave the images of their rows *)
Theorem symmetric_results : forall asort, argsort_ok asort -> forall m, isometry m ->
  forall gen h t comps fuel t', proper gen h t comps -> Forall (symmetric m) comps -> trace asort h gen fuel t = TOk t' ->
  forall i j c c', nth_error (source_rays gen t) i = Some c -> nth_error (source_rays gen t) j = Some c' ->
  with_id 0 c' = carry m (with_id 0 c) ->
  rows_with_id j (f_rows (get_results t')) = map (fun w => row_with_id j (move_row m w)) (rows_with_id i (f_rows (get_results t'))).
Proof.
  intros asort AS m ISO gen h t comps fuel t' P S T i j c c' N N' E.
  pose proof P as (SC & _ & _ & RAYS & PARTS).
  assert (K : Forall2 (same_answer asort m) comps comps /\ Forall2 (alike m) (flat_map surface_ids comps) (flat_map surface_ids comps)).
  { clear - ISO S PARTS. induction S as [|s l S F IH]; cbn [flat_map] in *; [split; constructor|].
    destruct (shape_symmetric asort m ISO s S) as (A1 & A2).
    { intros f I. destruct (PARTS f (in_or_app _ _ _ (or_introl I))) as (_ & A & B & _). auto. }
    destruct IH as (B1 & B2); [intros; apply PARTS, in_or_app; auto|]. split; [constructor; auto|apply Forall2_app; auto]. }
  destruct K as (AN & AL). destruct (RAYS c (nth_error_In _ _ N)) as ((O & D & _) & _).
  pose proof (scene_histories asort AS _ _ _ _ _ _ T SC i c N) as H. pose proof (scene_histories asort AS _ _ _ _ _ _ T SC j c' N') as H'.
  apply (history_moved asort comps comps m ISO AN AL) in H; [|exact O|exact D].
  apply (history_with_id _ _ _ _ j) in H. rewrite map_map in H.
  replace (with_id j (carry m (with_id i c))) with (with_id j c') in H.
  - exact (history_unique _ _ _ _ _ _ _ (proj2 (proj2 SC)) H _ H').
  - apply (f_equal (with_id j)) in E. exact E.
Qed.

(** a ray the map leaves as it is, is left as it is all the way *)
Theorem fixed_rays : forall asort, argsort_ok asort -> forall m, isometry m ->
  forall gen h t comps fuel t', proper gen h t comps -> Forall (symmetric m) comps -> trace asort h gen fuel t = TOk t' ->
  forall i c, nth_error (source_rays gen t) i = Some c -> ray_map m (c_ray c) = c_ray c ->
  forall w, In w (rows_with_id i (f_rows (get_results t'))) -> move_row m w = w.
Proof.
  intros asort AS m ISO gen h t comps fuel t' P S T i c N E w W.
  assert (E' : with_id 0 c = carry m (with_id 0 c)).
  { unfold carry, with_ray, with_id; cbn [c_ray c_gen c_int c_wl c_idx c_id]. rewrite E. reflexivity. }
  pose proof (symmetric_results asort AS m ISO gen h t comps fuel t' P S T i i c c N N E') as R.
  assert (G : forall (A : Type) (f : A -> A) l, l = map f l -> forall x, In x l -> f x = x).
  { intros A f l. induction l as [|a l IH]; intros EQ x I; [destruct I|]. cbn [map] in EQ. injection EQ as E1 E2.
    destruct I as [<-|I]; [symmetry; exact E1|apply IH; auto]. }
  pose proof (G _ _ _ R w W) as K. apply in_rows_with_id in W. destruct W as (_ & W).
  rewrite <- K at 2. unfold row_with_id, move_row; cbn [row_gen row_int row_wl row_idx row_id row_surf row_start row_end row_tilt].
  f_equal. auto.
Qed.

Lemma flip_y_iso : isometry mirror_y.
Proof. apply turning_iso, flip_turning; unfold sign; lra. Qed.
Lemma flip_z_iso : isometry mirror_z.
Proof. apply turning_iso, flip_turning; unfold sign; lra. Qed.

(** a ray along the axis stays on it *)
Theorem axis_rays : forall asort, argsort_ok asort -> forall gen h t comps fuel t', proper gen h t comps ->
  Forall (fun s => symmetric mirror_y s /\ symmetric mirror_z s) comps -> trace asort h gen fuel t = TOk t' ->
  forall i c, nth_error (source_rays gen t) i = Some c -> on_axis (origin (c_ray c)) -> on_axis (direction (c_ray c)) ->
  forall w, In w (rows_with_id i (f_rows (get_results t'))) ->
  on_axis (row_start w) /\ on_axis (row_end w) /\ on_axis (row_tilt w) /\ (vx (row_tilt w) = 1 \/ vx (row_tilt w) = -1).
Proof.
  intros asort AS gen h t comps fuel t' P S T i c N (O1 & O2) (D1 & D2) w W.
  assert (Y : move_row mirror_y w = w).
  { apply (fixed_rays asort AS mirror_y flip_y_iso gen h t comps fuel t' P) with (i := i) (c := c); auto.
    - eapply Forall_impl; [|exact S]. intros a B; apply B.
    - unfold ray_map, mirror_y. rewrite !mapply_flip, O1, O2, D1, D2. destruct (c_ray c) as [[a1 a2 a3 a4] [b1 b2 b3 b4]]; cbn [origin direction vx vy vz vw] in *.
      subst. repeat f_equal; ring. }
  assert (Z : move_row mirror_z w = w).
  { apply (fixed_rays asort AS mirror_z flip_z_iso gen h t comps fuel t' P) with (i := i) (c := c); auto.
    - eapply Forall_impl; [|exact S]. intros a B; apply B.
    - unfold ray_map, mirror_z. rewrite !mapply_flip, O1, O2, D1, D2. destruct (c_ray c) as [[a1 a2 a3 a4] [b1 b2 b3 b4]]; cbn [origin direction vx vy vz vw] in *.
      subst. repeat f_equal; ring. }
  assert (L : unit (row_tilt w) /\ vw (row_tilt w) = 0).
  { destruct (proper_legs asort AS _ _ _ _ _ _ P T) as (LG & _). apply in_rows_with_id in W. destruct (LG w (proj1 W)) as (U & V & _). auto. }
  apply (f_equal (fun w => (row_start w, row_end w, row_tilt w))) in Y, Z. unfold move_row, mirror_y, mirror_z, here, vset_w in Y, Z; cbn [row_start row_end row_tilt] in Y, Z.
  rewrite !mapply_flip in Y, Z. destruct (row_start w) as [a1 a2 a3 a4], (row_end w) as [b1 b2 b3 b4], (row_tilt w) as [c1 c2 c3 c4].
  unfold trim, vset_w in *; cbn [vx vy vz vw] in *. injection Y as Y1 Y2 Y3. injection Z as Z1 Z2 Z3.
  unfold on_axis; cbn [vx vy vz vw]. destruct L as (U & W0). unfold unit, vdot in U; cbn [vx vy vz vw] in U.
  assert (c2 = 0) by lra. assert (c3 = 0) by lra. repeat split; try lra. subst.
  assert (X : (c1 - 1) * (c1 + 1) = 0) by lra. apply Rmult_integral in X. destruct X; [left|right]; lra.
Qed.
