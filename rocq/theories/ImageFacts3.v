(** * ImageFacts3: every placed plane is flat; a mirrored box is a corner reflector *)
From Coq Require Import Reals Lra Lia List Bool ZArith Psatz.
Import ListNotations.
From Verif Require Import XR XRFacts Arr Lin LinFacts Ops OpsFacts SpecOptics Prim Csg Surf SpecGeom SpecTree SpecNormal CsgProps SurfFacts TreeFacts World SpecWorld Tracer SpecTrace
  PrimFacts2 TraceFacts3 TraceFacts5 TraceFacts6 TraceFacts7 TraceProps MirrorTrace SpecImages ImageFacts ImageFacts2.
Open Scope R_scope.

Lemma plane_hit_at : forall w l r t, ends (plane_hits w l r) t -> vz (ray_at r t) = 0.
Proof.
  intros w l r t H. unfold plane_hits in H.
  destruct (plane_axis_hits w (vx (origin r)) (vx (direction r))) as (x0, x1). destruct (plane_axis_hits l (vy (origin r)) (vy (direction r))) as (y0, y1).
  set (b1 := snd (sort2 (x0, y0))) in *. set (b2 := fst (sort2 (x1, y1))) in *. clearbody b1 b2.
  assert (K : (if isclose (vz (direction r)) 0 then PInf else xdiv (Fin (- vz (origin r))) (Fin (vz (direction r) + b2r (isclose (vz (direction r)) 0)))) = Fin t).
  { destruct (xleb b1 _ && xleb _ b2)%bool in H; destruct H as [H|H]; cbn in H; auto; discriminate. }
  destruct (isclose (vz (direction r)) 0) eqn:IC; [discriminate|]. cbn [b2r] in K.
  assert (NZ : vz (direction r) <> 0).
  { intro Z. rewrite Z in IC. unfold isclose in IC. apply Bool.not_true_iff_false in IC. apply IC. apply rleb_true. rewrite Rminus_0_r, Rabs_R0. unfold atol, rtol. lra. }
  rewrite Rplus_0_r in K. unfold xdiv in K. destruct (Req_EM_T (vz (direction r)) 0); [contradiction|]. injection K as <-.
  unfold ray_at, vadd, vscale; cbn [vz]. field. auto.
Qed.

Lemma plane_facet : forall s a b, surf_ok s -> (s_nscale s = 1 \/ s_nscale s = -1) -> s_prim s = PPlane a b ->
  exists p, facet_ok p /\ (forall q, vw q = 1 -> vz (mapply (s_obj s) q) = 0 -> vdot (fst p) q = snd p) /\
    (forall x y, vdot (fst p) (mapply (s_world s) (V4 x y 0 1)) = snd p) /\
    (forall q, world_normal s q = Some (fst p) \/ world_normal s q = Some (vopp (fst p))).
Proof.
  intros s a b (PO & AF & (I1 & I2)) NS EP.
  destruct (row2 (s_obj s)) as [o1 o2 o3 o4] eqn:RO.
  assert (ZO : forall v, vz (mapply (s_obj s) v) = o1 * vx v + o2 * vy v + o3 * vz v + o4 * vw v).
  { intro v. unfold mapply; cbn [vz]. rewrite RO. unfold vdot; cbn [vx vy vz vw]. ring. }
  assert (INV : forall v, mapply (s_obj s) (mapply (s_world s) v) = v).
  { intro v. rewrite <- mapply_mmul. rewrite ?I1, ?I2. apply mapply_mid. }
  set (N2 := o1 * o1 + o2 * o2 + o3 * o3).
  assert (POS : 0 < N2).
  { assert (NZ : N2 <> 0).
    { intro Z. assert (Z1 : o1 = 0) by (unfold N2 in Z; nra). assert (Z2 : o2 = 0) by (unfold N2 in Z; nra). assert (Z3 : o3 = 0) by (unfold N2 in Z; nra).
      pose proof (ZO (mapply (s_world s) (V4 0 0 1 0))) as K. rewrite INV in K. cbn [vz] in K.
      assert (W : vw (mapply (s_world s) (V4 0 0 1 0)) = 0).
      { unfold affine in AF. unfold mapply; cbn [vw]. rewrite AF. unfold vdot; cbn. ring. }
      rewrite W, Z1, Z2, Z3 in K. lra. }
    unfold N2 in *. nra. }
  set (N := sqrt N2). assert (NP : 0 < N) by (apply sqrt_lt_R0; auto). assert (NN : N * N = N2) by (apply sqrt_sqrt; lra).
  exists (V4 (/ N * o1) (/ N * o2) (/ N * o3) 0, - (/ N * o4)).
  assert (PL : forall q, vw q = 1 -> vz (mapply (s_obj s) q) = 0 -> vdot (V4 (/ N * o1) (/ N * o2) (/ N * o3) 0) q = - (/ N * o4)).
  { intros q W Z. rewrite ZO, W in Z. unfold vdot; cbn [vx vy vz vw].
    replace (/ N * o1 * vx q + / N * o2 * vy q + / N * o3 * vz q + 0 * vw q) with (/ N * (o1 * vx q + o2 * vy q + o3 * vz q)) by ring.
    replace (o1 * vx q + o2 * vy q + o3 * vz q) with (- o4) by lra. ring. }
  split; [split|split; [exact PL|split]]; cbn [fst snd].
  - unfold unit, vdot; cbn [vx vy vz vw]. transitivity (/ N * / N * N2); [unfold N2; ring|]. rewrite <- NN. field. lra.
  - reflexivity.
  - intros x y. apply PL.
    + unfold affine in AF. unfold mapply; cbn [vw]. rewrite AF. unfold vdot; cbn. ring.
    + rewrite INV. reflexivity.
  - intro q. unfold world_normal. rewrite EP. cbn [prim_normal].
    assert (E : vset_w (mapply (mtrans (s_obj s)) plane_normal) 0 = V4 o1 o2 o3 0).
    { unfold plane_normal. destruct (s_obj s) as [[] [] [] []]. cbn in RO. injection RO as -> -> -> ->. unfold mtrans, mapply, vset_w, vdot; cbn. f_equal; ring. }
    rewrite E. unfold vnormalize.
    assert (EN : vdot (V4 o1 o2 o3 0) (V4 o1 o2 o3 0) = N2) by (unfold vdot, N2; cbn; ring).
    destruct (Req_EM_T (vdot (V4 o1 o2 o3 0) (V4 o1 o2 o3 0)) 0) as [Z|_]; [lra|]. unfold vnorm. rewrite EN. fold N.
    cbn [fst]. unfold vopp, vscale; cbn [vx vy vz vw]. destruct NS as [-> | ->]; [left|right]; apply (f_equal Some); f_equal; ring.
Qed.

Lemma plane_mirror_facet : forall asort, argsort_ok asort -> forall gen h t comps fuel t', proper gen h t comps -> trace asort h gen fuel t = TOk t' ->
  forall s a b, In s (flat_map surface_ids comps) -> s_prim s = PPlane a b -> s_mat s = Mirror ->
  exists p, facet_ok p /\ (forall x y, vdot (fst p) (mapply (s_world s) (V4 x y 0 1)) = snd p) /\
    forall w, In w (f_rows (get_results t')) -> row_surf w = s_id s -> off_mirror (flat_map surface_ids comps) p w.
Proof.
  intros asort AS gen h t comps fuel t' PR TR s a b IN EP MT. pose proof PR as ((_ & _ & ND) & _ & _ & _ & PO).
  destruct (PO s IN) as (P1 & P2 & P3 & _ & NS & _).
  destruct (plane_facet s a b (conj P1 (conj P2 P3)) NS EP) as (p & F & Z & XY & WN).
  exists p. split; [auto|]. split; [auto|]. intros w W SU.
  destruct (proper_legs asort AS gen h t comps fuel t' PR TR) as (A & _).
  destruct (A w W) as (U & D & c & C & EN & FH). rewrite SU in FH.
  pose proof (first_hit_at asort AS comps ND _ _ _ FH IN) as H. apply surf_hits_ends in H. rewrite EP in H. cbn [prim_hits] in H. apply plane_hit_at in H.
  exists s. split; [auto|]. split; [auto|]. split; [auto|]. split; [|apply WN].
  assert (E : here (row_end w) = ray_at (Ray (here (row_start w)) (row_tilt w)) c).
  { rewrite EN. revert D. unfold here, vset_w, ray_at. cbn [origin direction]. destruct (row_start w) as [s1 s2 s3 s4], (row_tilt w) as [d1 d2 d3 d4]. unfold vadd, vscale; cbn [vx vy vz vw]. intros ->. f_equal; ring. }
  rewrite E. apply Z.
  - unfold ray_at, here, vset_w; cbn [origin direction]. unfold vadd, vscale; cbn [vw]. rewrite D. ring.
  - rewrite <- H. f_equal. symmetry. apply ray_at_map.
Qed.
