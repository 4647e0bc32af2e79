(** * AxisRays: what a ray close to the x axis meets on the surfaces of a lens *)
From Coq Require Import Reals Lra Lia List Bool ZArith Psatz.
Import ListNotations.
From Verif Require Import XR XRFacts Arr Lin LinFacts Ops OpsFacts SpecOptics Prim Csg Surf SpecGeom SpecTree CsgProps SpanFacts BoxFacts TreeFacts
  World SpecWorld WorldFacts3 Tracer SpecTrace Components SpecComponents BuildFacts ComponentFacts ComponentOptics SymmetryComponents Chords.
Open Scope R_scope.

Section Axis.
  (** The plane of the ray: the x axis and the direction (ey, ez) across it *)
  Variables ey ez : R.
  Hypothesis EU : ey * ey + ez * ez = 1.
  Definition mpt (x y : R) : v4 := pt x (y * ey) (y * ez).
  Definition mdir (x y : R) : v4 := V4 x (y * ey) (y * ez) 0.
  Definition mray (x y dx dy : R) : ray := Ray (mpt x y) (mdir dx dy).
  Lemma ey_abs : Rabs ey <= 1.
  Proof. apply Rabs_le. nra. Qed.
  Lemma ez_abs : Rabs ez <= 1.
  Proof. apply Rabs_le. nra. Qed.
  Lemma mray_at : forall x y dx dy t, ray_at (mray x y dx dy) t = mpt (x + t * dx) (y + t * dy).
  Proof. intros. unfold mray, mpt, mdir. rewrite ray_pt. unfold pt. f_equal; ring. Qed.

  (** ** Spheres *)
  Definition beta (x y dx dy c : R) : R := dx * (x - c) + dy * y.
  Definition csq (x y dx dy c r : R) : R := beta x y dx dy c * beta x y dx dy c - ((x - c) * (x - c) + y * y - r * r).
  Definition btime (sg x y dx dy c r : R) : R := - beta x y dx dy c + sg * sqrt (csq x y dx dy c r).
  Lemma xdiv_fin' : forall a b, b <> 0 -> xdiv (Fin a) (Fin b) = Fin (a / b).
  Proof. intros a b N. unfold xdiv. destruct (Req_EM_T b 0); [contradiction|reflexivity]. Qed.
  Lemma sort2_le : forall a b, a <= b -> sort2 (Fin a, Fin b) = (Fin a, Fin b).
  Proof. intros a b L. unfold sort2. cbn [fst snd xsle]. apply rleb_true in L. simpl. rewrite L. reflexivity. Qed.
  Lemma sort2_gt : forall a b, b < a -> sort2 (Fin a, Fin b) = (Fin b, Fin a).
  Proof. intros a b L. unfold sort2. cbn [fst snd xsle]. apply rleb_false in L. simpl. rewrite L. reflexivity. Qed.
  Lemma sphere_axis : forall f r m c k x y dx dy, turned_surf f (PSphere r) m 0 0 c k -> dx * dx + dy * dy = 1 -> 0 < csq x y dx dy c r ->
    surf_hits f (mray x y dx dy) = [Fin (btime (-1) x y dx dy c r); Fin (btime 1 x y dx dy c r)].
  Proof.
    intros f r m c k x y dx dy (P & _ & O & _) U G. unfold surf_hits. rewrite P, O. unfold ray_map, mray, mpt, mdir. cbn [origin direction].
    rewrite tobj_pt, tobj_vec. cbn [prim_hits]. unfold sphere_hits, pt. cbn [origin direction vx vy vz].
    set (a := dy * ey * (dy * ey) + dy * ez * (dy * ez) + dx * dx).
    assert (A : a = 1) by (unfold a; replace (dy * ey * (dy * ey) + dy * ez * (dy * ez)) with (dy * dy * (ey * ey + ez * ez)) by ring; rewrite EU; lra).
    set (b := 2 * (dy * ey * (y * ey - 0) + dy * ez * (y * ez - 0) + dx * (x - c))).
    assert (B : b = 2 * beta x y dx dy c).
    { unfold b, beta. replace (dy * ey * (y * ey - 0) + dy * ez * (y * ez - 0)) with (dy * y * (ey * ey + ez * ez)) by ring. rewrite EU. ring. }
    set (q := (y * ey - 0) * (y * ey - 0) + (y * ez - 0) * (y * ez - 0) + (x - c) * (x - c) - r * r).
    assert (Q : q = (x - c) * (x - c) + y * y - r * r).
    { unfold q. replace ((y * ey - 0) * (y * ey - 0) + (y * ez - 0) * (y * ez - 0)) with (y * y * (ey * ey + ez * ez)) by ring. rewrite EU. ring. }
    clearbody a b q. subst a b q.
    replace (2 * beta x y dx dy c * (2 * beta x y dx dy c) - 4 * 1 * ((x - c) * (x - c) + y * y - r * r)) with (2 * 2 * csq x y dx dy c r) by (unfold csq; ring).
    rewrite Rmax_right by lra. rewrite sqrt_mult by lra. rewrite sqrt_square by lra.
    assert (S := sqrt_lt_R0 _ G). set (s := sqrt (csq x y dx dy c r)) in *.
    replace (rleb 0 (2 * 2 * csq x y dx dy c r)) with true by (symmetry; apply rleb_true; lra).
    rewrite !xdiv_fin' by lra. unfold btime. fold s. rewrite sort2_gt by lra. cbv beta iota. f_equal; [f_equal; field|f_equal; f_equal; field].
  Qed.
  (** the hits lie on the sphere *)
  Lemma btime_on : forall sg x y dx dy c r, (sg = 1 \/ sg = -1) -> dx * dx + dy * dy = 1 -> 0 <= csq x y dx dy c r ->
    let t := btime sg x y dx dy c r in (x + t * dx - c) * (x + t * dx - c) + (y + t * dy) * (y + t * dy) = r * r.
  Proof.
    intros sg x y dx dy c r SG U G t. unfold t, btime. assert (S := sqrt_sqrt _ G). set (s := sqrt (csq x y dx dy c r)) in *. unfold csq in S.
    set (b := beta x y dx dy c) in *. set (T := - b + sg * s).
    assert (E : (x + T * dx - c) * (x + T * dx - c) + (y + T * dy) * (y + T * dy) =
       (x - c) * (x - c) + y * y + 2 * T * (dx * (x - c) + dy * y) + T * T * (dx * dx + dy * dy)) by ring.
    change (dx * (x - c) + dy * y) with b in E. rewrite E, U. unfold T. destruct SG as [-> | ->]; nra.
  Qed.
  Lemma btime_shift : forall sg x y dx dy c r w, dx * dx + dy * dy = 1 -> btime sg (x + w * dx) (y + w * dy) dx dy c r = btime sg x y dx dy c r - w.
  Proof.
    intros sg x y dx dy c r w U. unfold btime.
    assert (B : beta (x + w * dx) (y + w * dy) dx dy c = beta x y dx dy c + w) by (unfold beta; replace (dx * (x + w * dx - c) + dy * (y + w * dy)) with (dx * (x - c) + dy * y + w * (dx * dx + dy * dy)) by ring; rewrite U; ring).
    assert (C : csq (x + w * dx) (y + w * dy) dx dy c r = csq x y dx dy c r).
    { unfold csq. rewrite B. set (b := beta x y dx dy c).
      replace ((x + w * dx - c) * (x + w * dx - c) + (y + w * dy) * (y + w * dy)) with ((x - c) * (x - c) + y * y + 2 * w * (dx * (x - c) + dy * y) + w * w * (dx * dx + dy * dy)) by ring.
      rewrite U. change (dx * (x - c) + dy * y) with b. ring. }
    rewrite B, C. ring.
  Qed.
  Lemma btime_zero : forall sg x y dx dy c r, (sg = 1 \/ sg = -1) -> (x - c) * (x - c) + y * y = r * r -> 0 < sg * beta x y dx dy c ->
    btime sg x y dx dy c r = 0.
  Proof.
    intros sg x y dx dy c r SG E B. unfold btime, csq. rewrite E. replace (beta x y dx dy c * beta x y dx dy c - (r * r - r * r)) with (Rsqr (beta x y dx dy c)) by (unfold Rsqr; ring).
    rewrite sqrt_Rsqr_abs. destruct SG as [-> | ->]; [rewrite Rabs_right by lra|rewrite Rabs_left by lra]; ring.
  Qed.
  (** the outward normal of the surface of curvature 1/r whose vertex is at c - r *)
  Lemma sphere_face : forall f r m c k x y, turned_surf f (PSphere r) m 0 0 c k -> r <> 0 -> (x - c) * (x - c) + y * y = r * r ->
    world_normal f (mpt x y) = Some (V4 (k * ((x - c) / Rabs r)) (k * (y / Rabs r) * ey) (k * (y / Rabs r) * ez) 0).
  Proof.
    intros f r m c k x y TS N E. assert (A : Rabs r * Rabs r = r * r) by apply abs_sq. assert (AP := Rabs_pos_lt _ N).
    assert (UN : (y * ey / Rabs r) * (y * ey / Rabs r) + (y * ez / Rabs r) * (y * ez / Rabs r) + ((x - c) / Rabs r) * ((x - c) / Rabs r) = 1).
    { apply (Rmult_eq_reg_r (Rabs r * Rabs r)); [|nra]. rewrite Rmult_1_l. rewrite A at 2. rewrite <- E.
      transitivity (y * y * (ey * ey + ez * ez) + (x - c) * (x - c)); [field; lra|rewrite EU; ring]. }
    unfold mpt. rewrite (turned_normal f (PSphere r) m 0 0 c k x (y * ey) (y * ez) (V4 (y * ey / Rabs r) (y * ez / Rabs r) ((x - c) / Rabs r) 0) TS).
    - cbn [vx vy vz]. f_equal. f_equal; unfold Rdiv; ring.
    - cbn [prim_normal]. unfold sphere_normal, pt, vset_w; cbn [vx vy vz vw].
      assert (V : vnormalize (V4 (y * ey - 0) (y * ez - 0) (x - c) 0) = vnormalize (vscale (Rabs r) (V4 (y * ey / Rabs r) (y * ez / Rabs r) ((x - c) / Rabs r) 0))).
      { f_equal. unfold vscale; cbn [vx vy vz vw]. f_equal; field; lra. }
      rewrite V. unfold vnormalize, vnorm.
      assert (D : vdot (vscale (Rabs r) (V4 (y * ey / Rabs r) (y * ez / Rabs r) ((x - c) / Rabs r) 0)) (vscale (Rabs r) (V4 (y * ey / Rabs r) (y * ez / Rabs r) ((x - c) / Rabs r) 0)) = Rabs r * Rabs r).
      { unfold vdot, vscale; cbn [vx vy vz vw]. transitivity (Rabs r * Rabs r * (y * ey / Rabs r * (y * ey / Rabs r) + y * ez / Rabs r * (y * ez / Rabs r) + (x - c) / Rabs r * ((x - c) / Rabs r))); [ring|rewrite UN; ring]. }
      rewrite D, sqrt_square by lra. destruct (Req_EM_T (Rabs r * Rabs r) 0); [nra|]. f_equal. unfold vscale; cbn [vx vy vz vw]. f_equal; field; lra.
    - reflexivity.
    - unfold unit, vdot; cbn [vx vy vz vw]. lra.
  Qed.

  (** ** Directions numpy takes for parallel to the axis *)
  Definition thin (y dy : R) : Prop := Rabs dy <= 1 / 1000000000 /\ Rabs y <= 1.
  Lemma thin_axis : forall y dy e, thin y dy -> Rabs e <= 1 -> isclose (dy * e) 0 = true.
  Proof.
    intros y dy e (D & _) E. unfold isclose. apply rleb_true. rewrite Rminus_0_r, Rabs_R0, Rabs_mult. unfold atol.
    pose proof (Rabs_pos dy). pose proof (Rabs_pos e). nra.
  Qed.
  Lemma not_thin : forall dx, 1 / 2 <= dx -> isclose dx 0 = false.
  Proof. intros dx D. unfold isclose. apply rleb_false. rewrite Rminus_0_r, Rabs_R0, Rabs_right by lra. unfold atol. lra. Qed.

  (** ** The two faces of the aperture *)
  Lemma z_clip_axis : forall lo hi o d, 1 / 2 <= d -> z_clip lo hi o d = (Fin ((lo - o) / d), Fin ((hi - o) / d)).
  Proof.
    intros lo hi o d D. unfold z_clip. rewrite (not_thin d D). cbn [andb b2r]. rewrite Rplus_0_r, !xdiv_fin' by lra. reflexivity.
  Qed.
  Lemma xleb_pinf : forall x, x <> NaN -> xleb x PInf = true.
  Proof. intros [x| | |] N; try reflexivity; contradiction. Qed.
  Lemma clip_all : forall a b, a <= b -> clip_hits (MInf, PInf) (Fin a, Fin b) = (Fin a, Fin b).
  Proof.
    intros a b L. unfold clip_hits. rewrite (sort2_le a b L). change (sort2 (MInf, PInf)) with (MInf, PInf). cbv beta iota.
    cbn [xmax xmin xleb]. apply rleb_true in L. rewrite L. reflexivity.
  Qed.
  Lemma cylinder_axis : forall rad lo hi x y dx dy, 1 / 2 <= dx -> thin y dy -> y * y <= rad * rad -> lo <= hi ->
    cylinder_hits rad lo hi (Ray (pt (y * ey) (y * ez) x) (V4 (dy * ey) (dy * ez) dx 0)) = (Fin ((lo - x) / dx), Fin ((hi - x) / dx)).
  Proof.
    intros rad lo hi x y dx dy D (T1 & T2) I L. unfold cylinder_hits. cbn [origin direction pt vx vy vz].
    replace (dy * ey * (dy * ey) + dy * ez * (dy * ez)) with (dy * dy * (ey * ey + ez * ez)) by ring. rewrite EU, Rmult_1_r.
    replace (2 * (dy * ey * (y * ey) + dy * ez * (y * ez))) with (2 * (dy * y) * (ey * ey + ez * ez)) by ring. rewrite EU, Rmult_1_r.
    replace (y * ey * (y * ey) + y * ez * (y * ez) - rad * rad) with (y * y * (ey * ey + ez * ez) - rad * rad) by ring. rewrite EU, Rmult_1_r.
    rewrite (z_clip_axis lo hi x dx D).
    assert (B : sort2 (binomial_root (dy * dy) (2 * (dy * y)) (y * y - rad * rad)) = (MInf, PInf)).
    { unfold binomial_root. assert (A1 : isclose (dy * dy) 0 = true).
      { unfold isclose. apply rleb_true. rewrite Rminus_0_r, Rabs_R0, Rabs_mult. unfold atol. pose proof (Rabs_pos dy). nra. }
      assert (A2 : isclose (2 * (dy * y)) 0 = true).
      { unfold isclose. apply rleb_true. rewrite Rminus_0_r, Rabs_R0, !Rabs_mult. rewrite (Rabs_right 2) by lra. unfold atol. pose proof (Rabs_pos dy). pose proof (Rabs_pos y). nra. }
      rewrite A1, A2. replace (rleb (y * y - rad * rad) 0) with true by (symmetry; apply rleb_true; lra). cbn [andb].
      destruct (rleb 0 _); reflexivity. }
    rewrite B. apply clip_all. unfold Rdiv. apply Rmult_le_compat_r; [apply Rlt_le, Rinv_0_lt_compat; lra|lra].
  Qed.
  Lemma axis_thin_hits : forall a o dy e, Rabs e <= 1 -> thin 0 dy -> Rabs o <= a -> cube_axis_hits (Fin (- a), Fin a) o (dy * e) = (MInf, PInf).
  Proof.
    intros a o dy e E T O. unfold cube_axis_hits. rewrite (thin_axis 0 dy e T E). cbn [negb xleb].
    replace (rleb o a) with true by (symmetry; apply rleb_true; pose proof (Rle_abs o); lra).
    replace (rleb (- a) o) with true by (symmetry; apply rleb_true; pose proof (Rle_abs (- o)) as X; rewrite Rabs_Ropp in X; lra). reflexivity.
  Qed.
  Lemma axis_long_hits : forall lo hi o d, 1 / 2 <= d -> lo <= hi -> cube_axis_hits (Fin lo, Fin hi) o d = (Fin ((lo - o) / d), Fin ((hi - o) / d)).
  Proof.
    intros lo hi o d D L. unfold cube_axis_hits. rewrite (not_thin d D). cbn [negb b2r xsub xopp xadd]. rewrite Rplus_0_r, !xdiv_fin' by lra.
    replace (- (o + - lo)) with (lo - o) by ring. replace (- (o + - hi)) with (hi - o) by ring. apply sort2_le.
    unfold Rdiv. apply Rmult_le_compat_r; [apply Rlt_le, Rinv_0_lt_compat; lra|lra].
  Qed.
  Lemma div_lt : forall lo hi o d, 1 / 2 <= d -> lo < hi -> (lo - o) / d < (hi - o) / d.
  Proof. intros. unfold Rdiv. apply Rmult_lt_compat_r; [apply Rinv_0_lt_compat; lra|lra]. Qed.
  Lemma long_hits : forall x0 x1, x0 < x1 ->
    (let lo := xmax (xmax MInf MInf) (Fin x0) in let hi := xmin (xmin PInf PInf) (Fin x1) in if xltb lo hi then (lo, hi) else (PInf, PInf)) = (Fin x0, Fin x1).
  Proof. intros x0 x1 L. cbn [xmax xmin xleb xltb]. apply rltb_true in L. rewrite L. reflexivity. Qed.
  Lemma thin0 : forall y dy, thin y dy -> thin 0 dy.
  Proof. intros y dy (A & _). split; [exact A|rewrite Rabs_R0; lra]. Qed.
  Lemma mul_e : forall y e a, Rabs e <= 1 -> Rabs y <= a -> Rabs (y * e) <= a.
  Proof. intros y e a E Y. rewrite Rabs_mult. pose proof (Rabs_pos y). pose proof (Rabs_pos e). nra. Qed.
  Lemma cube_axis : forall a b lo hi x y dx dy, 1 / 2 <= dx -> thin y dy -> Rabs y <= a / 2 -> Rabs y <= b / 2 -> lo < hi ->
    cube_hits (cube_box (fin3 (- a / 2, - b / 2, lo)) (fin3 (a / 2, b / 2, hi))) (Ray (pt (y * ey) (y * ez) x) (V4 (dy * ey) (dy * ez) dx 0)) =
      (Fin ((lo - x) / dx), Fin ((hi - x) / dx)).
  Proof.
    intros a b lo hi x y dx dy D T A B L. unfold cube_hits, cube_box, fin3. cbn [origin direction pt vx vy vz spanx spany spanz].
    pose proof (Rabs_pos y). rewrite !sort2_le by lra.
    replace (- a / 2) with (- (a / 2)) by field. replace (- b / 2) with (- (b / 2)) by field.
    rewrite (axis_thin_hits (a / 2) (y * ey) dy ey ey_abs (thin0 _ _ T)) by (apply mul_e; [apply ey_abs|exact A]).
    rewrite (axis_thin_hits (b / 2) (y * ez) dy ez ez_abs (thin0 _ _ T)) by (apply mul_e; [apply ez_abs|exact B]).
    rewrite (axis_long_hits lo hi x dx D) by lra. apply long_hits. apply div_lt; auto.
  Qed.
  Definition ap_half (ap : aperture_arg) : R := match ap with Round d => d / 2 | Pair a b => Rmin (a / 2) (b / 2) end.
  Lemma ap_half_pos : forall ap, ap_ok ap -> 0 < ap_half ap.
  Proof. intros [d|a b] A; cbn in *; [lra|]. apply Rmin_glb_lt; lra. Qed.
  Lemma aperture_axis : forall f ap th p m c k x y dx dy, ap_ok ap -> create_aperture ap th = Some p -> 0 < th -> turned_surf f p m 0 0 c k ->
    1 / 2 <= dx -> thin y dy -> Rabs y <= ap_half ap ->
    surf_hits f (mray x y dx dy) = [Fin ((c - th / 2 - x) / dx); Fin ((c + th / 2 - x) / dx)].
  Proof.
    intros f ap th p m c k x y dx dy A E T0 (P & _ & O & _) D T Y. unfold surf_hits. rewrite P, O. unfold ray_map, mray, mpt, mdir. cbn [origin direction].
    rewrite tobj_pt, tobj_vec, !Rminus_0_r.
    assert (H : prim_hits p (Ray (pt (y * ey) (y * ez) (x - c)) (V4 (dy * ey) (dy * ez) dx 0)) = (Fin ((c - th / 2 - x) / dx), Fin ((c + th / 2 - x) / dx))).
    { replace (c - th / 2 - x) with (- th / 2 - (x - c)) by field. replace (c + th / 2 - x) with (th / 2 - (x - c)) by field.
      destruct ap as [d|a b]; cbn [create_aperture ap_half ap_ok] in *.
      - injection E as <-. cbn [prim_hits]. apply cylinder_axis; auto; [|lra]. rewrite <- (abs_sq y). pose proof (Rabs_pos y). nra.
      - destruct (rltb 0 a && rltb 0 b)%bool; [|discriminate]. injection E as <-. cbn [prim_hits]. pose proof (Rmin_l (a / 2) (b / 2)). pose proof (Rmin_r (a / 2) (b / 2)).
        apply cube_axis; auto; lra. }
    rewrite H, sort2_le; [reflexivity|]. apply Rlt_le. apply div_lt; lra.
  Qed.
  (** the normal of the faces *)
  Definition ap_clear (ap : aperture_arg) : Prop := match ap with Round _ => True | Pair a b => 1 / 1000000 < a /\ 1 / 1000000 < b end.
  Lemma far_close : forall a x, 1 / 2000000 < a -> Rabs x <= a / 2 -> isclose x (- a) = false /\ isclose x a = false.
  Proof.
    intros a x A X. unfold isclose, atol, rtol. rewrite Rabs_Ropp, (Rabs_right a) by lra. pose proof (Rle_abs x). pose proof (Rle_abs (- x)) as N. rewrite Rabs_Ropp in N.
    split; apply rleb_false; [rewrite Rabs_right by lra|rewrite Rabs_left by lra]; lra.
  Qed.
  Lemma same_close : forall a, isclose a a = true.
  Proof. intro a. unfold isclose. apply rleb_true. rewrite Rminus_diag_eq, Rabs_R0 by auto. pose proof (Rabs_pos a). unfold atol, rtol. nra. Qed.
  Lemma cap_face : forall f ap th p m c y sg, ap_ok ap -> ap_clear ap -> create_aperture ap th = Some p -> 1 / 1000000 < th -> (sg = 1 \/ sg = -1) ->
    turned_surf f p m 0 0 c 1 -> Rabs y <= ap_half ap / 2 -> world_normal f (mpt (c + sg * (th / 2)) y) = Some (V4 sg 0 0 0).
  Proof.
    intros f ap th p m c y sg A CL E T SG TS Y. unfold mpt.
    rewrite (turned_normal f p m 0 0 c 1 _ _ _ (V4 0 0 sg 0) TS).
    - cbn [vx vy vz]. f_equal. f_equal; ring.
    - replace (c + sg * (th / 2) - c) with (sg * (th / 2)) by ring. rewrite !Rminus_0_r.
      assert (FAR : isclose (- (th / 2)) (th / 2) = false) by (unfold isclose, atol, rtol; apply rleb_false; rewrite (Rabs_left (- (th / 2) - th / 2)), (Rabs_right (th / 2)) by lra; lra).
      assert (FAR' : isclose (th / 2) (- (th / 2)) = false) by (unfold isclose, atol, rtol; apply rleb_false; rewrite Rabs_Ropp, (Rabs_right (th / 2 - - (th / 2))), (Rabs_right (th / 2)) by lra; lra).
      assert (NZ : vnormalize (V4 0 0 sg 0) = Some (V4 0 0 sg 0)) by (apply vnormalize_unit; unfold vdot; cbn [vx vy vz vw]; destruct SG as [-> | ->]; ring).
      destruct ap as [d|a b]; cbn [create_aperture ap_half ap_ok ap_clear] in *.
      + injection E as <-. cbn [prim_normal]. unfold cylinder_normal. cbn [pt vz]. replace (- th / 2) with (- (th / 2)) by field.
        destruct SG as [-> | ->].
        * rewrite Rmult_1_l, (same_close (th / 2)). exact NZ.
        * replace (-1 * (th / 2)) with (- (th / 2)) by ring. rewrite FAR, (same_close (- (th / 2))). exact NZ.
      + destruct (rltb 0 a && rltb 0 b)%bool; [|discriminate]. injection E as <-. cbn [prim_normal]. unfold cube_normal. cbn [pt vx vy vz].
        replace (- th / 2) with (- (th / 2)) by field. replace (- a / 2) with (- (a / 2)) by field. replace (- b / 2) with (- (b / 2)) by field.
        rewrite !Rmin_left, !Rmax_right by lra. pose proof (Rmin_l (a / 2) (b / 2)). pose proof (Rmin_r (a / 2) (b / 2)).
        destruct (far_close (a / 2) (y * ey)) as (X1 & X2); [lra|apply mul_e; [apply ey_abs|lra]|].
        destruct (far_close (b / 2) (y * ez)) as (Y1 & Y2); [lra|apply mul_e; [apply ez_abs|lra]|].
        unfold cube_normal_axis. rewrite X1, X2, Y1, Y2.
        destruct SG as [-> | ->].
        * rewrite Rmult_1_l, (same_close (th / 2)). exact NZ.
        * replace (-1 * (th / 2)) with (- (th / 2)) by ring. rewrite FAR, (same_close (- (th / 2))). exact NZ.
    - reflexivity.
    - unfold unit, vdot; cbn [vx vy vz vw]. destruct SG as [-> | ->]; ring.
  Qed.

  (** ** Boxes *)
  Definition core_box (front back : R) (b : box) : Prop :=
    exists lo hi Y Z, spanx b = (Fin lo, Fin hi) /\ lo <= front /\ back <= hi /\ 0 < Y /\ 0 < Z /\
      spany b = (Fin (- Y), Fin Y) /\ spanz b = (Fin (- Z), Fin Z).
  Lemma core_hit : forall pf pb b, pf < pb -> core_box pf pb b -> exists w, 0 < w /\
    forall x y dx dy, 1 / 2 <= dx -> thin y dy -> Rabs y <= w -> box_hit b (mray x y dx dy) = true.
  Proof.
    intros pf pb b T (lo & hi & Y & Z & EX & LO & HI & YP & ZP & EY & EZ). exists (Rmin Y Z). split; [apply Rmin_pos; auto|].
    intros x y dx dy D TH W. pose proof (Rmin_l Y Z). pose proof (Rmin_r Y Z). unfold box_hit, cube_hits, mray, mpt, mdir. cbn [origin direction pt vx vy vz].
    rewrite EX, EY, EZ. rewrite (axis_long_hits lo hi x dx D) by lra.
    rewrite (axis_thin_hits Y (y * ey) dy ey ey_abs (thin0 _ _ TH)) by (apply mul_e; [apply ey_abs|lra]).
    rewrite (axis_thin_hits Z (y * ez) dy ez ez_abs (thin0 _ _ TH)) by (apply mul_e; [apply ez_abs|lra]).
    cbn [xmax xmin xleb xltb]. pose proof (div_lt lo hi x dx D ltac:(lra)) as L. apply rltb_true in L. rewrite L. reflexivity.
  Qed.
  Lemma core_inter : forall asort, argsort_ok asort -> forall pf pb a b, pf < pb -> core_box pf pb a -> core_box pf pb b -> core_box pf pb (csg_box asort INTERSECT a b).
  Proof.
    intros asort AS pf pb a b T (lo & hi & Y & Z & EX & LO & HI & YP & ZP & EY & EZ) (lo' & hi' & Y' & Z' & EX' & LO' & HI' & YP' & ZP' & EY' & EZ').
    unfold csg_box, core_box. cbn [spanx spany spanz]. rewrite EX, EX', EY, EY', EZ, EZ'.
    assert (L1 : Rmax lo lo' <= pf) by (apply Rmax_lub; lra). assert (L2 : pb <= Rmin hi hi') by (apply Rmin_glb; lra).
    destruct (centred_combine asort AS INTERSECT Y Y') as (c & C & ->); auto; [discriminate|].
    destruct (centred_combine asort AS INTERSECT Z Z') as (c' & C' & ->); auto; [discriminate|].
    rewrite (inter_overlap asort AS) by lra. eauto 15.
  Qed.
  Lemma turned_box_x : forall p c x y z0 z1, prim_corners p = ((- x, - y, z0), (x, y, z1)) ->
    spanx (surf_box p (turned_at c)) = (Fin (Rmin z0 z1 + c), Fin (Rmax z0 z1 + c)).
  Proof.
    intros p c x y z0 z1 E. unfold surf_box. rewrite bounding_box_spans by (intro X; apply map_eq_nil in X; exact (bounding_points_nonempty p X)).
    cbn [spanx]. rewrite bounding_points_alt, E. cbn [fst snd]. unfold corner_points.
    cbn [flat_map map app]. rewrite !turned_apply. unfold point; cbn [vx vy vz vw]. rewrite !Rmult_1_r. unfold list_min, list_max; cbn [fold_left].
    pose proof (Rmin_l z0 z1). pose proof (Rmax_l z0 z1). set (u := Rmin z0 z1) in *. set (v := Rmax z0 z1) in *.
    assert (M1 : Rmin (u + c) (v + c) = u + c) by (apply Rmin_left; lra). assert (M2 : Rmin (u + c) (u + c) = u + c) by (apply Rmin_left; lra).
    assert (M3 : Rmax (u + c) (v + c) = v + c) by (apply Rmax_right; lra). assert (M4 : Rmax (v + c) (v + c) = v + c) by (apply Rmax_right; lra).
    assert (M5 : Rmax (v + c) (u + c) = v + c) by (apply Rmax_left; lra).
    repeat first [rewrite M1|rewrite M2|rewrite M3|rewrite M4|rewrite M5]. reflexivity.
  Qed.

  (** ** An absorbing plane across the axis *)
  Lemma screen_axis : forall g w l d x y dx dy, s_prim g = PPlane w l -> 0 < w -> 0 < l ->
    s_obj g = M4 (V4 0 0 (-1) 0) (V4 0 1 0 0) (V4 1 0 0 (- d)) (V4 0 0 0 1) -> 1 / 2 <= dx -> thin y dy -> Rabs y <= w / 2 -> Rabs y <= l / 2 ->
    surf_hits g (mray x y dx dy) = [Fin ((d - x) / dx); Fin ((d - x) / dx)].
  Proof.
    intros g w l d x y dx dy P W L O D T Y1 Y2. unfold surf_hits. rewrite P, O. unfold ray_map, mray, mpt, mdir, pt. cbn [origin direction].
    unfold mapply, vdot; cbn [vx vy vz vw row0 row1 row2 row3]. cbn [prim_hits]. unfold plane_hits; cbn [origin direction vx vy vz].
    assert (AX : forall dim o e, Rabs e <= 1 -> Rabs o <= dim / 2 -> plane_axis_hits dim o (dy * e) = (MInf, PInf)).
    { intros dim o e E H. unfold plane_axis_hits. rewrite (thin_axis y dy e T E). apply rleb_true in H. rewrite H. reflexivity. }
    replace (0 * dx + 0 * (dy * ey) + -1 * (dy * ez) + 0 * 0) with (dy * (- ez)) by ring.
    replace (0 * dx + 1 * (dy * ey) + 0 * (dy * ez) + 0 * 0) with (dy * ey) by ring.
    replace (1 * dx + 0 * (dy * ey) + 0 * (dy * ez) + - d * 0) with dx by ring.
    replace (1 * x + 0 * (y * ey) + 0 * (y * ez) + - d * 1) with (x - d) by ring.
    replace (0 * x + 1 * (y * ey) + 0 * (y * ez) + 0 * 1) with (y * ey) by ring.
    replace (0 * x + 0 * (y * ey) + -1 * (y * ez) + 0 * 1) with (y * (- ez)) by ring.
    assert (EN : Rabs (- ez) <= 1) by (rewrite Rabs_Ropp; apply ez_abs).
    rewrite (AX w (y * - ez) (- ez) EN) by (apply mul_e; auto). rewrite (AX l (y * ey) ey ey_abs) by (apply mul_e; [apply ey_abs|auto]).
    rewrite (not_thin dx D). cbn [b2r]. rewrite Rplus_0_r, xdiv_fin' by lra. change (sort2 (MInf, MInf)) with (MInf, MInf). change (sort2 (PInf, PInf)) with (PInf, PInf).
    cbn [snd fst xleb andb]. rewrite sort2_le by lra. replace (- (x - d)) with (d - x) by ring. reflexivity.
  Qed.
End Axis.
