(** * ComponentFacts: the solids the component factories build *)
From Coq Require Import Reals Lra Lia List Bool ZArith Psatz.
Import ListNotations.
From Verif Require Import XR XRFacts Arr Lin LinFacts Prim Csg Surf SpecGeom SpecTree CsgProps World SpecWorld
  WorldFacts3 WorldFacts5 WorldProps Components SpecComponents BuildFacts.
Open Scope R_scope.

(** ** From the tracked tree to the built component *)
Lemma track_app : forall a b e, track (a ++ b) e = match track a e with Some e' => track b e' | None => None end.
Proof. induction a as [|c a IH]; intros b e; simpl; auto. destruct (track_call c e); auto. Qed.
Lemma track_move : forall l mo env T t, nth_error env l = Some (Some T) -> rigid mo -> motion_matrix mo = Some t ->
  track_call (CMotion l mo) env = Some (set_nth env l (Some (mv t T))).
Proof. intros l mo env T t E R M. cbn [track_call]. rewrite E, M. destruct mo; try reflexivity; destruct R. Qed.
Definition ry90 : mat := M4 (V4 0 0 1 0) (V4 0 1 0 0) (V4 (-1) 0 0 0) (V4 0 0 0 1).
Definition rx90 : mat := M4 (V4 1 0 0 0) (V4 0 0 (-1) 0) (V4 0 1 0 0) (V4 0 0 0 1).
Lemma track_turned : forall prog l env T, track prog [] = Some env -> nth_error env l = Some (Some T) ->
  exists env', track (prog ++ [CMotion l (RotY 90 Deg); CMotion l (RotX 90 Deg)]) [] = Some env' /\
    nth_error env' l = Some (Some (mv rx90 (mv ry90 T))).
Proof.
  intros prog l env T E N. destruct rot_quarter as (X & Y & _). rewrite track_app, E.
  exists (set_nth (set_nth env l (Some (mv ry90 T))) l (Some (mv rx90 (mv ry90 T)))).
  assert (N1 : nth_error (set_nth env l (Some (mv ry90 T))) l = Some (Some (mv ry90 T))) by (rewrite nth_set_nth, Nat.eqb_refl, N; reflexivity).
  split.
  - cbn [track]. rewrite (track_move l (RotY 90 Deg) env T ry90 N I Y). rewrite (track_move l (RotX 90 Deg) _ _ rx90 N1 I X). reflexivity.
  - rewrite nth_set_nth, Nat.eqb_refl, N1. reflexivity.
Qed.
Lemma region_mv : forall t ti, is_inverse t ti -> affine t -> forall T q, region (mv t T) q <-> region T (mapply ti q).
Proof.
  intros t ti [I1 I2] A. induction T as [p m w k|op a IHa b IHb]; intros q.
  - simpl. split; intros (x & V & S & E); exists x; (split; [auto|]; split; [auto|]).
    + rewrite <- E, (mapply_mmul t w x), <- (mapply_mmul ti t). unfold is_inverse in *. rewrite ?I1, ?I2, mapply_mid. reflexivity.
    + rewrite mapply_mmul, E, <- (mapply_mmul t ti). rewrite ?I1, ?I2, mapply_mid. reflexivity.
  - destruct op; simpl; rewrite IHa, IHb; tauto.
Qed.
Lemma region_turned : forall T x y z, region (mv rx90 (mv ry90 T)) (pt x y z) <-> region T (pt y z x).
Proof.
  intros T x y z.
  rewrite (region_mv rx90 (M4 (V4 1 0 0 0) (V4 0 0 1 0) (V4 0 (-1) 0 0) (V4 0 0 0 1))).
  2:{ split; unfold rx90, mmul, mapply, mtrans, vdot, mid; cbn [vx vy vz vw row0 row1 row2 row3]; repeat f_equal; ring. }
  2:{ reflexivity. }
  rewrite (region_mv ry90 (M4 (V4 0 0 (-1) 0) (V4 0 1 0 0) (V4 1 0 0 0) (V4 0 0 0 1))).
  2:{ split; unfold ry90, mmul, mapply, mtrans, vdot, mid; cbn [vx vy vz vw row0 row1 row2 row3]; repeat f_equal; ring. }
  2:{ reflexivity. }
  match goal with |- region T ?q <-> _ => replace q with (pt y z x) end; [reflexivity|].
  unfold pt, mapply, vdot; cbn [vx vy vz vw row0 row1 row2 row3]. f_equal; ring.
Qed.
Lemma prims_ok_mv : forall t T, affine t -> prims_ok T -> prims_ok (mv t T).
Proof.
  intros t T A. induction T as [p m w k|op a IHa b IHb]; simpl; intros P; [|tauto].
  split; [tauto|]. apply affine_mmul; tauto.
Qed.
Lemma right_leaf_mv : forall t T, right_leaf (mv t T) = right_leaf T.
Proof.
  intros t T. induction T as [p m w k|op a IHa b IHb]; simpl; auto. rewrite IHa, IHb. f_equal. destruct op; auto; destruct b; auto.
Qed.
Lemma built_turned : forall asort prog l env T (P : shape -> Prop), argsort_ok asort -> track prog [] = Some env ->
  nth_error env l = Some (Some T) -> right_leaf T = true -> prims_ok T ->
  (forall s, erase s = mv rx90 (mv ry90 T) -> boxes_current s -> (forall x y z, inside s (pt x y z) <-> region T (pt y z x)) -> P s) ->
  built asort (turned (Makes prog l)) P.
Proof.
  intros asort prog l env T P AO E N RL PO K. destruct (track_turned _ _ _ _ E N) as (env' & E' & N').
  eexists _, l. split; [reflexivity|]. intros h Nh.
  replace (prog ++ [CMotion l (RotY 90 Deg); CMotion l (RotX 90 Deg)]) with ((prog ++ [CMotion l (RotY 90 Deg)]) ++ [CMotion l (RotX 90 Deg)]) in E' |- *
    by (rewrite <- app_assoc; reflexivity).
  destruct (built_component asort _ l (RotX 90 Deg) h env' _ AO Nh E' N') as (h' & s & R & Sh & Er & TO & BC).
  - rewrite !right_leaf_mv. exact RL.
  - apply prims_ok_mv; [reflexivity|]. apply prims_ok_mv; [reflexivity|]. exact PO.
  - exists h', s. split; [exact R|]. split; [exact Sh|]. split; [exact TO|]. split; [exact BC|]. apply K; auto.
    intros x y z. rewrite inside_region, Er. apply region_turned.
Qed.

(** ** Leaves that were moved *)
Lemma leaf_at : forall p m w k q x0, vw x0 = 1 -> mapply w x0 = q -> (forall x, vw x = 1 -> mapply w x = q -> x = x0) ->
  (region (TLeaf p m w k) q <-> solid p x0).
Proof.
  intros p m w k q x0 V E U. simpl. split.
  - intros (x & Vx & S & Ex). rewrite <- (U x Vx Ex). exact S.
  - intros S. exists x0. auto.
Qed.
Definition mmove (u v c : R) : mat := M4 (V4 1 0 0 u) (V4 0 1 0 v) (V4 0 0 1 c) (V4 0 0 0 1).
Lemma mmove_mmove : forall a b c d e f, mmul (mmove a b c) (mmove d e f) = mmove (a + d) (b + e) (c + f).
Proof.
  intros. unfold mmove, mmul, mapply, mtrans, vdot; cbn [vx vy vz vw row0 row1 row2 row3].
  f_equal; f_equal; ring.
Qed.
Lemma leaf_mmove : forall p m k u v c x y z, region (TLeaf p m (mmove u v c) k) (pt x y z) <-> solid p (pt (x - u) (y - v) (z - c)).
Proof.
  assert (A : forall u v c x y z w, mapply (mmove u v c) (V4 x y z w) = V4 (x + w * u) (y + w * v) (z + w * c) w).
  { intros. unfold mmove, mapply, vdot; cbn [vx vy vz vw row0 row1 row2 row3]. f_equal; ring. }
  intros. apply leaf_at; [reflexivity| |].
  - unfold pt. rewrite A. f_equal; ring.
  - intros [x' y' z' w'] V H. rewrite A in H. cbn [vw] in V. subst w'. unfold pt in *. injection H as <- <- <-. f_equal; ring.
Qed.
Lemma leaf_mid : forall p m k x y z, region (TLeaf p m mid k) (pt x y z) <-> solid p (pt x y z).
Proof.
  intros. change mid with (mmove 0 0 0). rewrite leaf_mmove. rewrite !Rminus_0_r. reflexivity.
Qed.
Lemma leaf_moved : forall p m k u v c x y z, region (TLeaf p m (mmul (mmove u v c) mid) k) (pt x y z) <-> solid p (pt (x - u) (y - v) (z - c)).
Proof. intros. rewrite mmul_mid_r. apply leaf_mmove. Qed.
Lemma leaf_moved2 : forall p m k u v c u' v' c' x y z, region (TLeaf p m (mmul (mmove u' v' c') (mmul (mmove u v c) mid)) k) (pt x y z) <->
  solid p (pt (x - (u' + u)) (y - (v' + v)) (z - (c' + c))).
Proof. intros. rewrite mmul_mid_r, mmove_mmove. apply leaf_mmove. Qed.

(** ** Apertures *)
Lemma create_aperture_ok : forall ap th, ap_ok ap -> exists p, create_aperture ap th = Some p.
Proof.
  intros [d|a b] th A; simpl in *; [eauto|]. destruct A as [A B]. apply rltb_true in A, B. rewrite A, B. simpl. eauto.
Qed.
Lemma aperture_prim_ok : forall ap th p, ap_ok ap -> 0 <= th -> create_aperture ap th = Some p -> prim_ok p.
Proof.
  intros [d|a b] th p A T E; simpl in *.
  - injection E as <-. simpl. split; lra.
  - destruct (rltb 0 a && rltb 0 b)%bool; [|discriminate]. injection E as <-. exact I.
Qed.
Lemma aperture_init : forall ap th p, create_aperture ap th = Some p -> prim_init p = Some p.
Proof.
  intros [d|a b] th p E; simpl in *; [injection E as <-; reflexivity|].
  destruct (rltb 0 a && rltb 0 b)%bool; [|discriminate]. injection E as <-. reflexivity.
Qed.
Lemma between_sym : forall a x, 0 <= a -> (between (- a) a x <-> Rabs x <= a).
Proof.
  intros a x A. unfold between. rewrite Rmin_left, Rmax_right by lra. split; intro H; [apply Rabs_le; lra|].
  unfold Rabs in H. destruct (Rcase_abs x); lra.
Qed.
Lemma aperture_solid : forall ap th p off y z x, ap_ok ap -> 0 <= th -> create_aperture ap th = Some p ->
  (solid p (pt (y - fst off) (z - snd off) x) <-> in_aperture ap off y z /\ - (th / 2) <= x <= th / 2).
Proof.
  intros [d|a b] th p off y z x A T E; simpl in *.
  - injection E as <-. simpl. replace (- th / 2) with (- (th / 2)) by field. tauto.
  - destruct (rltb 0 a && rltb 0 b)%bool; [|discriminate]. injection E as <-. simpl.
    replace (- a / 2) with (- (a / 2)) by field. replace (- b / 2) with (- (b / 2)) by field. replace (- th / 2) with (- (th / 2)) by field.
    rewrite !between_sym by lra. rewrite <- (between_sym (th / 2) x) by lra. unfold between. rewrite Rmin_left, Rmax_right by lra. tauto.
Qed.
Lemma max_height_reach : forall ap, max_height ap = reach ap.
Proof.
  intros [d|a b]; simpl; [reflexivity|]. replace (a / 2 * (a / 2) + b / 2 * (b / 2)) with ((a * a + b * b) / (2 * 2)) by field.
  rewrite sqrt_div_alt by lra. rewrite sqrt_square by lra. reflexivity.
Qed.
Lemma reach_pos : forall ap, ap_ok ap -> 0 < reach ap.
Proof. intros [d|a b] A; simpl in *; [lra|]. apply sqrt_lt_R0. nra. Qed.
Lemma aperture_reach : forall ap y z, ap_ok ap -> in_aperture ap (0, 0) y z -> 0 <= y * y + z * z <= reach ap * reach ap.
Proof.
  intros [d|a b] y z A I; simpl in *; (split; [nra|]).
  - rewrite !Rminus_0_r in I. exact I.
  - rewrite sqrt_sqrt by nra. rewrite !Rminus_0_r in I. destruct I as [Y Z].
    assert (Y2 : y * y <= a / 2 * (a / 2)) by (apply Rsqr_le_abs_1; rewrite (Rabs_right (a / 2)) by lra; exact Y).
    assert (Z2 : z * z <= b / 2 * (b / 2)) by (apply Rsqr_le_abs_1; rewrite (Rabs_right (b / 2)) by lra; exact Z). lra.
Qed.

(** ** Balls along the axis *)
Lemma ball_iff : forall r q u, 0 <= r * r - q -> (q + u * u <= r * r <-> - sqrt (r * r - q) <= u <= sqrt (r * r - q)).
Proof.
  intros r q u H. assert (S := sqrt_sqrt _ H). assert (S0 := sqrt_pos (r * r - q)). set (s := sqrt (r * r - q)) in *. split; intro B.
  - split; nra.
  - nra.
Qed.
Lemma sqrt_mono : forall r q h, 0 <= q -> q <= h * h -> sqrt (r * r - h * h) <= sqrt (r * r - q).
Proof. intros. apply sqrt_le_1_alt. lra. Qed.
Lemma room : forall r q h, 0 <= h -> h <= Rabs r -> q <= h * h -> 0 <= r * r - q.
Proof. intros r q h H0 H Q. assert (h * h <= r * r) by (apply Rsqr_le_abs_1; rewrite (Rabs_right h) by lra; exact H). lra. Qed.

Definition side_depth (r : R) (h : R) : R := Rabs r - sqrt (Rabs r * Rabs r - h * h).
Lemma abs_sq : forall r, Rabs r * Rabs r = r * r.
Proof. intros. rewrite <- Rabs_mult. apply Rabs_right. nra. Qed.
(** front side *)
Lemma front_in : forall r t q x h, r <> 0 -> 0 <= h -> h <= Rabs r -> 0 <= q <= h * h ->
  (0 < r -> x <= r + sqrt (r * r - q) - t / 2) -> lens_front (Fin r) t q < x ->
  if rltb 0 r then q + (x - (r - t / 2)) * (x - (r - t / 2)) <= r * r else ~ (q + (x - (r - t / 2)) * (x - (r - t / 2)) <= r * r).
Proof.
  intros r t q x h N H0 H Q Far F. pose proof (room r q h H0 H ltac:(lra)) as Rm. unfold lens_front, sag in F.
  destruct (rltb 0 r) eqn:E; rewrite ball_iff by lra.
  - apply rltb_true in E. specialize (Far E). lra.
  - lra.
Qed.
Lemma front_out : forall r t q x h, r <> 0 -> 0 <= h -> h <= Rabs r -> 0 <= q <= h * h ->
  (r < 0 -> - (t / 2 + side_depth r h) <= x) ->
  (if rltb 0 r then q + (x - (r - t / 2)) * (x - (r - t / 2)) <= r * r else ~ (q + (x - (r - t / 2)) * (x - (r - t / 2)) <= r * r)) ->
  lens_front (Fin r) t q <= x.
Proof.
  intros r t q x h N H0 H Q Ap B. pose proof (room r q h H0 H ltac:(lra)) as Rm. unfold lens_front, sag.
  destruct (rltb 0 r) eqn:E; rewrite ball_iff in B by lra.
  - lra.
  - apply rltb_false in E. assert (r < 0) by lra. specialize (Ap ltac:(lra)). unfold side_depth in Ap. rewrite abs_sq, Rabs_left in Ap by lra.
    pose proof (sqrt_pos (r * r - q)). pose proof (sqrt_pos (r * r - h * h)).
    destruct (Rle_dec (r + sqrt (r * r - q) - t / 2) x); [auto|]. exfalso. apply B. lra.
Qed.
Lemma front_room : forall r t q h, r <> 0 -> 0 <= h -> h <= Rabs r -> 0 <= q <= h * h ->
  - (t / 2 + (if rltb r 0 then side_depth r h else 0)) <= lens_front (Fin r) t q.
Proof.
  intros r t q h N H0 H Q. pose proof (room r q h H0 H ltac:(lra)) as Rm. unfold lens_front, sag. pose proof (sqrt_mono r q h ltac:(lra) ltac:(lra)) as M.
  destruct (rltb 0 r) eqn:E; destruct (rltb r 0) eqn:E'; try apply rltb_true in E; try apply rltb_true in E'; try apply rltb_false in E; try apply rltb_false in E'; try lra.
  - assert (sqrt (r * r - q) <= r); [|lra]. apply Rsqr_incr_0; [|apply sqrt_pos|lra]. unfold Rsqr. rewrite sqrt_sqrt by lra. lra.
  - unfold side_depth. rewrite abs_sq, Rabs_left by lra. lra.
Qed.
(** the back is the front seen from the other side *)
Lemma back_front : forall r t q, r <> 0 -> lens_back (Fin r) t q = - lens_front (Fin (- r)) t q.
Proof.
  intros r t q N. unfold lens_back, lens_front, sag. replace (- r * - r - q) with (r * r - q) by ring.
  destruct (rltb 0 r) eqn:E; destruct (rltb 0 (- r)) eqn:E'; try apply rltb_true in E; try apply rltb_true in E'; try apply rltb_false in E; try apply rltb_false in E'; try lra.
Qed.
Lemma rltb_opp : forall r, rltb 0 (- r) = rltb r 0.
Proof.
  intros r. destruct (rltb r 0) eqn:E; [apply rltb_true in E; apply rltb_true; lra|apply rltb_false in E; apply rltb_false; lra].
Qed.
Lemma side_depth_opp : forall r h, side_depth (- r) h = side_depth r h.
Proof. intros. unfold side_depth. rewrite Rabs_Ropp. reflexivity. Qed.
Lemma back_in : forall r t q x h, r <> 0 -> 0 <= h -> h <= Rabs r -> 0 <= q <= h * h ->
  (r < 0 -> r - sqrt (r * r - q) + t / 2 <= x) -> x < lens_back (Fin r) t q ->
  if rltb r 0 then q + (x - (r + t / 2)) * (x - (r + t / 2)) <= r * r else ~ (q + (x - (r + t / 2)) * (x - (r + t / 2)) <= r * r).
Proof.
  intros r t q x h N H0 H Q Far F. rewrite back_front in F by auto. rewrite <- rltb_opp.
  replace (q + (x - (r + t / 2)) * (x - (r + t / 2))) with (q + (- x - (- r - t / 2)) * (- x - (- r - t / 2))) by ring.
  replace (r * r) with (- r * - r) by ring. apply (front_in (- r) t q (- x) h); try lra.
  - rewrite Rabs_Ropp; auto.
  - replace (- r * - r) with (r * r) by ring. lra.
Qed.
Lemma back_out : forall r t q x h, r <> 0 -> 0 <= h -> h <= Rabs r -> 0 <= q <= h * h ->
  (0 < r -> x <= t / 2 + side_depth r h) ->
  (if rltb r 0 then q + (x - (r + t / 2)) * (x - (r + t / 2)) <= r * r else ~ (q + (x - (r + t / 2)) * (x - (r + t / 2)) <= r * r)) ->
  x <= lens_back (Fin r) t q.
Proof.
  intros r t q x h N H0 H Q Ap B. rewrite back_front by auto.
  assert (lens_front (Fin (- r)) t q <= - x); [|lra]. rewrite <- rltb_opp in B.
  replace (q + (x - (r + t / 2)) * (x - (r + t / 2))) with (q + (- x - (- r - t / 2)) * (- x - (- r - t / 2))) in B by ring.
  replace (r * r) with (- r * - r) in B by ring. apply (front_out (- r) t q (- x) h); try lra; auto.
  - rewrite Rabs_Ropp; auto.
  - rewrite side_depth_opp. lra.
Qed.
Lemma back_room : forall r t q h, r <> 0 -> 0 <= h -> h <= Rabs r -> 0 <= q <= h * h ->
  lens_back (Fin r) t q <= t / 2 + (if rltb 0 r then side_depth r h else 0).
Proof.
  intros r t q h N H0 H Q. rewrite back_front by auto. pose proof (front_room (- r) t q h) as X.
  rewrite Rabs_Ropp, side_depth_opp, <- rltb_opp, Ropp_involutive in X. specialize (X ltac:(lra) H0 H Q). lra.
Qed.

(** ** thick_lens *)
Definition in_ball (r c x q : R) : Prop := q + (x - c) * (x - c) <= r * r.
Lemma lens_side_track : forall convex r centre m prog l env T, track prog [] = Some env -> nth_error env l = Some (Some T) ->
  length env = S l -> right_leaf T = true -> prims_ok T -> (forall r', r = Fin r' -> r' <> 0) ->
  exists env' T', track (fst (lens_side convex r centre m (prog, l))) [] = Some env' /\
    nth_error env' (snd (lens_side convex r centre m (prog, l))) = Some (Some T') /\
    length env' = S (snd (lens_side convex r centre m (prog, l))) /\ right_leaf T' = true /\ prims_ok T' /\
    forall x y z, region T' (pt x y z) <-> region T (pt x y z) /\
      match r with
      | Fin r => if convex r then in_ball r (centre r) z (x * x + y * y) else ~ in_ball r (centre r) z (x * x + y * y)
      | _ => True
      end.
Proof.
  intros convex r centre m prog l env T E N L RL PO NZ.
  destruct r as [r| | |]; [|exists env, T; cbn [lens_side fst snd]; repeat (split; [auto|]); intros; tauto..].
  cbn [lens_side fst snd]. rewrite track_app, E. cbn [track track_call prim_init].
  assert (N0 : nth_error (env ++ [Some (TLeaf (PSphere r) m mid 1)]) (S l) = Some (Some (TLeaf (PSphere r) m mid 1))) by (rewrite nth_error_app2, L, Nat.sub_diag by lia; reflexivity).
  rewrite N0. cbn [op_move_z motion_matrix].
  change (M4 (V4 1 0 0 0) (V4 0 1 0 0) (V4 0 0 1 (centre r)) (V4 0 0 0 1)) with (mmove 0 0 (centre r)).
  destruct (Nat.eqb_spec l (S l)) as [X|_]; [lia|].
  set (B := mv (mmove 0 0 (centre r)) (TLeaf (PSphere r) m mid 1)).
  set (env1 := set_nth (env ++ _) (S l) (Some B)).
  assert (N1 : nth_error env1 l = Some (Some T)).
  { unfold env1. rewrite nth_set_nth. destruct (Nat.eqb_spec l (S l)); [lia|]. rewrite nth_error_app1 by lia. exact N. }
  assert (N2 : nth_error env1 (S l) = Some (Some B)).
  { unfold env1. rewrite nth_set_nth, Nat.eqb_refl. rewrite nth_error_app2, L, Nat.sub_diag by lia. reflexivity. }
  assert (L1 : length env1 = S (S l)) by (unfold env1; rewrite set_nth_length, app_length, L; simpl; lia).
  rewrite N1, N2. eexists _, _. split; [reflexivity|].
  split. { rewrite nth_error_app2 by (rewrite !set_nth_length, L1; lia). rewrite !set_nth_length, L1, Nat.sub_diag. reflexivity. }
  split; [rewrite app_length, !set_nth_length, L1; simpl; lia|].
  split; [destruct (convex r); simpl; rewrite RL; reflexivity|].
  split; [destruct (convex r); simpl; (split; [exact PO|]; split; [apply NZ; reflexivity|apply affine_mmul; reflexivity])|].
  intros x y z.
  assert (Q : forall k, region (TLeaf (PSphere r) m (mmul (mmove 0 0 (centre r)) mid) k) (pt x y z) <-> in_ball r (centre r) z (x * x + y * y)).
  { intros k. rewrite leaf_moved. unfold solid, in_ball, pt; cbn [vx vy vz vw]. rewrite !Rminus_0_r. tauto. }
  destruct (convex r); cbn [region inv B mv].
  - unfold B. cbn [mv]. specialize (Q 1). cbn [region] in Q. rewrite Q. tauto.
  - unfold B. cbn [mv inv]. specialize (Q (-1)). cbn [region] in Q. rewrite Q. tauto.
Qed.
Definition front_depth (r : xr) (h : R) : R := match r with Fin r => if rltb r 0 then side_depth r h else 0 | _ => 0 end.
Definition back_depth (r : xr) (h : R) : R := match r with Fin r => if rltb 0 r then side_depth r h else 0 | _ => 0 end.
Lemma side_depth_pos : forall r h, 0 <= h -> h <= Rabs r -> 0 <= side_depth r h.
Proof.
  intros r h H0 H. unfold side_depth. assert (sqrt (Rabs r * Rabs r - h * h) <= Rabs r); [|lra].
  apply Rsqr_incr_0; [|apply sqrt_pos|apply Rabs_pos]. unfold Rsqr. rewrite sqrt_sqrt; nra.
Qed.
Lemma full_thickness : forall r1 r2 t ap, ap_ok ap -> radius_ok r1 (reach ap) -> radius_ok r2 (reach ap) ->
  lens_full_thickness r1 r2 t ap = Some (t / 2 + back_depth r2 (reach ap) + (t / 2 + front_depth r1 (reach ap)),
     t / 2 + back_depth r2 (reach ap) - (t / 2 + front_depth r1 (reach ap))).
Proof.
  intros r1 r2 t ap A R1 R2. pose proof (reach_pos ap A) as P. unfold lens_full_thickness. rewrite max_height_reach.
  assert (SQ : forall r, reach ap <= Rabs r -> np_sqrt (Rabs r * Rabs r - reach ap * reach ap) = Some (sqrt (Rabs r * Rabs r - reach ap * reach ap))).
  { intros r H. unfold np_sqrt. replace (rleb 0 _) with true; [reflexivity|]. symmetry. apply rleb_true. nra. }
  assert (S1 : side_thickness (fun r => rltb r 0) r1 t (reach ap) = Some (t / 2 + front_depth r1 (reach ap))).
  { destruct r1 as [r1| | |]; simpl in *; try (f_equal; lra). destruct (rltb r1 0); [|f_equal; lra]. rewrite SQ by tauto. reflexivity. }
  assert (S2 : side_thickness (fun r => rltb 0 r) r2 t (reach ap) = Some (t / 2 + back_depth r2 (reach ap))).
  { destruct r2 as [r2| | |]; simpl in *; try (f_equal; lra). destruct (rltb 0 r2); [|f_equal; lra]. rewrite SQ by tauto. reflexivity. }
  rewrite S1, S2. reflexivity.
Qed.
Lemma front_depth_pos : forall r h, 0 <= h -> radius_ok r h -> 0 <= front_depth r h.
Proof. intros [r| | |] h H0 H; simpl in *; try lra. destruct (rltb r 0); [apply side_depth_pos; tauto|lra]. Qed.
Lemma back_depth_pos : forall r h, 0 <= h -> radius_ok r h -> 0 <= back_depth r h.
Proof. intros [r| | |] h H0 H; simpl in *; try lra. destruct (rltb 0 r); [apply side_depth_pos; tauto|lra]. Qed.

Definition front_part (r1 : xr) (t x q : R) : Prop :=
  match r1 with Fin r => if rltb 0 r then in_ball r (r - t / 2) x q else ~ in_ball r (r - t / 2) x q | _ => True end.
Definition back_part (r2 : xr) (t x q : R) : Prop :=
  match r2 with Fin r => if rltb r 0 then in_ball r (r + t / 2) x q else ~ in_ball r (r + t / 2) x q | _ => True end.
(** the exact set of points *)
Lemma thick_lens_region : forall asort r1 r2 t ap m, argsort_ok asort -> ap_ok ap -> 0 <= t ->
  radius_ok r1 (reach ap) -> radius_ok r2 (reach ap) ->
  built asort (thick_lens r1 r2 t ap m) (occupies (fun x y z =>
    in_aperture ap (0, 0) y z /\ - (t / 2 + front_depth r1 (reach ap)) <= x <= t / 2 + back_depth r2 (reach ap) /\
    front_part r1 t x (y * y + z * z) /\ back_part r2 t x (y * y + z * z))).
Proof.
  intros asort r1 r2 t ap m AO A T R1 R2. pose proof (reach_pos ap A) as P.
  pose proof (front_depth_pos r1 (reach ap) ltac:(lra) R1) as F1. pose proof (back_depth_pos r2 (reach ap) ltac:(lra) R2) as F2.
  unfold thick_lens. rewrite full_thickness by auto. set (D1 := front_depth r1 (reach ap)) in *. set (D2 := back_depth r2 (reach ap)) in *.
  set (th := t / 2 + D2 + (t / 2 + D1)). set (of := t / 2 + D2 - (t / 2 + D1)).
  destruct (create_aperture_ok ap th A) as (p & Ep). rewrite Ep. cbv zeta.
  assert (T0 : track [CSurface p m; CMotion 0 (op_move_z (of / 2))] [] = Some [Some (TLeaf p m (mmul (mmove 0 0 (of / 2)) mid) 1)]).
  { cbn [track track_call]. rewrite (aperture_init _ _ _ Ep). reflexivity. }
  destruct (lens_side_track (fun r => rltb 0 r) r1 (fun r => r - t / 2) m _ 0%nat _ _ T0 eq_refl eq_refl eq_refl) as (env1 & T1 & E1 & N1 & L1 & RL1 & P1 & G1).
  { simpl. split; [|apply affine_mmul; reflexivity]. eapply aperture_prim_ok; [exact A| |exact Ep]. unfold th. lra. }
  { intros r' ->. apply R1. }
  set (l1 := lens_side (fun r => rltb 0 r) r1 (fun r => r - t / 2) m _) in *. rewrite (surjective_pairing l1).
  destruct (lens_side_track (fun r => rltb r 0) r2 (fun r => r + t / 2) m _ _ _ _ E1 N1 L1 RL1 P1) as (env2 & T2 & E2 & N2 & L2 & RL2 & P2 & G2).
  { intros r' ->. apply R2. }
  eapply built_turned; [exact AO|exact E2|exact N2|exact RL2|exact P2|].
  intros s _ _ In x y z. rewrite In, G2, G1. clear In.
  assert (Ap : region (TLeaf p m (mmul (mmove 0 0 (of / 2)) mid) 1) (pt y z x) <-> in_aperture ap (0, 0) y z /\ - (t / 2 + D1) <= x <= t / 2 + D2).
  { rewrite leaf_moved. pose proof (aperture_solid ap th p (0, 0) y z (x - of / 2) A) as X. cbn [fst snd] in X. rewrite X by (auto; unfold th; lra).
    unfold th, of. split; intros [I B]; (split; [exact I|lra]). }
  rewrite Ap. unfold front_part, back_part. destruct r1, r2; tauto.
Qed.
Lemma thick_lens_solid : forall asort r1 r2 t ap m, argsort_ok asort -> ap_ok ap -> 0 <= t ->
  radius_ok r1 (reach ap) -> radius_ok r2 (reach ap) -> front_reaches r1 r2 t (reach ap) -> back_reaches r1 r2 t (reach ap) ->
  built asort (thick_lens r1 r2 t ap m) (fills
    (fun x y z => in_aperture ap (0, 0) y z /\ lens_front r1 t (y * y + z * z) < x < lens_back r2 t (y * y + z * z))
    (fun x y z => in_aperture ap (0, 0) y z /\ lens_front r1 t (y * y + z * z) <= x <= lens_back r2 t (y * y + z * z))).
Proof.
  intros asort r1 r2 t ap m AO A T R1 R2 FR BR.
  destruct (thick_lens_region asort r1 r2 t ap m AO A T R1 R2) as (prog & l & E & B). exists prog, l. split; [exact E|].
  intros h Nh. destruct (B h Nh) as (h' & s & R & Sh & TO & BC & Oc). exists h', s. split; [exact R|]. split; [exact Sh|]. split; [exact TO|]. split; [exact BC|].
  pose proof (reach_pos ap A) as P. intros x y z. rewrite (Oc x y z). clear - A T R1 R2 FR BR P.
  assert (Q : in_aperture ap (0, 0) y z -> 0 <= y * y + z * z <= reach ap * reach ap) by (apply aperture_reach; exact A).
  set (q := y * y + z * z) in *. set (h := reach ap) in *. split.
  - intros (I & F & K). specialize (Q I). split; [exact I|]. split.
    + split.
      * destruct r1 as [r1| | |]; simpl in R1; try contradiction; [|unfold lens_front, sag, front_depth in *; lra..].
        pose proof (front_room r1 t q h ltac:(tauto) ltac:(lra) ltac:(tauto) Q). unfold front_depth. lra.
      * destruct r2 as [r2| | |]; simpl in R2; try contradiction; [|unfold lens_back, sag, back_depth in *; lra..].
        pose proof (back_room r2 t q h ltac:(tauto) ltac:(lra) ltac:(tauto) Q). unfold back_depth. lra.
    + split.
      * destruct r1 as [r1| | |]; simpl in R1; try contradiction; [|exact Logic.I..]. unfold front_part, in_ball. apply (front_in r1 t q x h); try tauto; try lra.
        intros Pr. specialize (FR r1 eq_refl Pr q Q). lra.
      * destruct r2 as [r2| | |]; simpl in R2; try contradiction; [|exact Logic.I..]. unfold back_part, in_ball. apply (back_in r2 t q x h); try tauto; try lra.
        intros Pr. specialize (BR r2 eq_refl Pr q Q). lra.
  - intros (I & [X1 X2] & F & K). specialize (Q I). split; [exact I|]. split.
    + destruct r1 as [r1| | |]; simpl in R1; try contradiction; [|unfold lens_front, sag, front_depth in *; lra..].
      apply (front_out r1 t q x h); try tauto; try lra. intros Ng. apply rltb_true in Ng. unfold front_depth in X1. rewrite Ng in X1. exact X1.
    + destruct r2 as [r2| | |]; simpl in R2; try contradiction; [|unfold lens_back, sag, back_depth in *; lra..].
      apply (back_out r2 t q x h); try tauto; try lra. intros Ng. apply rltb_true in Ng. unfold back_depth in X2. rewrite Ng in X2. exact X2.
Qed.
