(** * MotionFacts: isometries and the optical laws *)
From Coq Require Import Reals List Bool ZArith Lra Lia.
Import ListNotations.
From Verif Require Import XR XRFacts Arr Lin LinFacts Ops Prim Csg CsgProps Surf World Tracer SpecTrace SpecMotion.
Open Scope R_scope.

Lemma mapply_zero : forall m, mapply m zero4 = zero4.
Proof. intro m. unfold zero4. vring. Qed.
Lemma mapply_opp : forall m a, mapply m (vopp a) = vopp (mapply m a).
Proof. vring. Qed.
Lemma mapply_sub : forall m a b, mapply m (vsub a b) = vsub (mapply m a) (mapply m b).
Proof. vring. Qed.
Lemma vdot_sub_l : forall a b c, vdot (vsub a b) c = vdot a c - vdot b c.
Proof. vring. Qed.
Lemma vw_add : forall a b, vw (vadd a b) = vw a + vw b.
Proof. reflexivity. Qed.
Lemma vw_opp : forall a, vw (vopp a) = - vw a.
Proof. intros; unfold vopp, vscale; cbn [vw]; ring. Qed.
Lemma vsub_zero : forall a b, vsub a b = V4 0 0 0 0 -> a = b.
Proof.
  intros a b H. unfold vsub, vadd, vopp, vscale in H. cbn [vx vy vz vw] in H. injection H as A B C D. apply v4_eq; lra.
Qed.

Section Iso.
  Variable m : mat.
  Hypothesis ISO : isometry m.

  Lemma iso_affine : affine m. Proof. apply ISO. Qed.
  Lemma iso_w : forall v, vw (mapply m v) = vw v.
  Proof. intro v. apply affine_w, iso_affine. Qed.
  Lemma iso_dot : forall u v, vw u = 0 -> vw v = 0 -> vdot (mapply m u) (mapply m v) = vdot u v.
  Proof. apply ISO. Qed.
  Lemma iso_norm : forall u, vw u = 0 -> vnorm (mapply m u) = vnorm u.
  Proof. intros u U. unfold vnorm. rewrite iso_dot by auto. reflexivity. Qed.
  Lemma iso_normalize : forall u, vw u = 0 -> vnormalize (mapply m u) = option_map (mapply m) (vnormalize u).
  Proof.
    intros u U. unfold vnormalize. rewrite (iso_norm u U), (iso_dot u u U U).
    destruct (Req_EM_T _ 0); [reflexivity|]. cbn [option_map]. rewrite mapply_scale. reflexivity.
  Qed.
  Lemma normalize_w : forall u v, vw u = 0 -> vnormalize u = Some v -> vw v = 0.
  Proof.
    intros u v U H. unfold vnormalize in H. destruct (Req_EM_T _ 0); [discriminate|]. injection H as <-.
    unfold vscale. cbn [vw]. rewrite U. ring.
  Qed.

  (** the transposed inverse acts on directions as the map itself *)
  Lemma iso_trans_inverse : forall i v, is_inverse m i -> vset_w (mapply (mtrans i) v) 0 = mapply m (vset_w v 0).
  Proof.
    intros i v I. set (a := vset_w (mapply (mtrans i) v) 0). set (b := mapply m (vset_w v 0)).
    pose proof (affine_inverse m i I iso_affine) as AI.
    assert (D : forall u, vw u = 0 -> vdot a u = vdot b u).
    { intros u U. assert (E : u = mapply m (mapply i u)) by (symmetry; apply inverse_apply_r; exact I).
      assert (W : vw (mapply i u) = 0) by (rewrite affine_w by exact AI; exact U).
      rewrite E at 2. unfold b. rewrite iso_dot by (auto; reflexivity).
      transitivity (vdot (mapply (mtrans i) v) u).
      - unfold a, vdot, vset_w. cbn [vx vy vz vw]. rewrite U. ring.
      - rewrite vdot_mtrans. unfold vdot, vset_w. cbn [vx vy vz vw]. rewrite W. ring. }
    assert (WA : vw a = 0) by reflexivity.
    assert (WB : vw b = 0) by (unfold b; rewrite iso_w; reflexivity).
    set (d := vsub a b).
    assert (WD : vw d = 0) by (unfold d, vsub; rewrite vw_add, vw_opp, WA, WB; ring).
    assert (Z : vdot d d = 0).
    { unfold d at 1. rewrite vdot_sub_l, (D d WD). ring. }
    apply vdot_self_zero in Z. apply vsub_zero. exact Z.
  Qed.

  Lemma reflect_moved : forall v n, vw v = 0 -> vw n = 0 ->
    reflect (mapply m v) (mapply m n) = mapply m (reflect v n).
  Proof.
    intros v n V N. unfold reflect. rewrite iso_dot, mapply_sub, !mapply_scale by auto. reflexivity.
  Qed.
  Lemma refract_moved : forall v n n1 n2 ng, vw v = 0 -> vw n = 0 ->
    refract (mapply m v) (mapply m n) n1 n2 ng =
    option_map (fun q => (mapply m (fst q), snd q)) (refract v n n1 n2 ng).
  Proof.
    intros v n n1 n2 ng V N. unfold refract. rewrite iso_normalize by exact V.
    destruct (vnormalize v) as [u|] eqn:E; [|reflexivity]. cbn [option_map].
    pose proof (normalize_w _ _ V E) as U. rewrite <- mapply_opp.
    assert (NO : vw (vopp n) = 0) by (rewrite vw_opp, N; ring).
    rewrite !iso_dot by auto.
    replace (if rltb 0 (vdot u n) then mapply m (vopp n) else mapply m n)
      with (mapply m (if rltb 0 (vdot u n) then vopp n else n)) by (destruct (rltb 0 (vdot u n)); reflexivity).
    set (nn := if rltb 0 (vdot u n) then vopp n else n).
    assert (NN : vw nn = 0) by (unfold nn; destruct (rltb 0 (vdot u n)); auto).
    destruct (Req_EM_T _ 0); [reflexivity|].
    match goal with |- context [rltb 0 (1 - ?x)] => set (rad := 1 - x) end.
    destruct (rltb 0 rad).
    - rewrite <- !mapply_scale, <- mapply_add, iso_normalize.
      + match goal with |- context [vnormalize ?x] => destruct (vnormalize x) end; reflexivity.
      + unfold vadd, vscale. cbn [vw]. rewrite U, NN. ring.
    - rewrite <- !mapply_scale, <- mapply_add, iso_normalize.
      + match goal with |- context [vnormalize ?x] => destruct (vnormalize x) end; reflexivity.
      + unfold vadd, vscale. cbn [vw]. rewrite U, NN. ring.
  Qed.

  (** *** Surfaces *)
  Lemma moved_object : forall s s', is_inverse (s_world s) (s_obj s) -> moved_surf m s s' ->
    forall v, mapply (s_obj s') (mapply m v) = mapply (s_obj s) v.
  Proof.
    intros s s' I (_ & _ & _ & _ & W & I') v. rewrite W in I'.
    rewrite <- (inverse_apply_r (s_world s) (s_obj s) v I) at 1.
    rewrite <- (mapply_mmul m (s_world s)). apply inverse_apply_l. exact I'.
  Qed.
  Lemma moved_object_inverse : forall s s' i, is_inverse m i -> is_inverse (s_world s) (s_obj s) -> moved_surf m s s' ->
    s_obj s' = mmul (s_obj s) i.
  Proof.
    intros s s' i M I (_ & _ & _ & _ & W & I'). rewrite W in I'.
    destruct (is_inverse_mmul _ _ _ _ M I) as [_ K]. destruct I' as [K' _].
    exact (inverse_unique _ _ _ K' K).
  Qed.
  Lemma moved_hits : forall s s', is_inverse (s_world s) (s_obj s) -> moved_surf m s s' ->
    forall r, surf_hits s' (ray_map m r) = surf_hits s r.
  Proof.
    intros s s' I M r. unfold surf_hits. pose proof M as (_ & P & _). rewrite P. unfold ray_map. cbn [origin direction].
    rewrite !(moved_object s s' I M). reflexivity.
  Qed.
  Lemma world_normal_w : forall s p n, world_normal s p = Some n -> vw n = 0.
  Proof.
    intros s p n H. unfold world_normal in H. destruct (prim_normal _ _); [|discriminate].
    destruct (vnormalize _) eqn:E; [|discriminate]. injection H as <-.
    assert (W : vw v0 = 0) by (refine (normalize_w _ _ _ E); reflexivity).
    unfold vscale. cbn [vw]. rewrite W. ring.
  Qed.
  Lemma moved_normal : forall s s', is_inverse (s_world s) (s_obj s) -> moved_surf m s s' ->
    forall p, world_normal s' (mapply m p) = option_map (mapply m) (world_normal s p).
  Proof.
    intros s s' I M p. unfold world_normal. rewrite (moved_object s s' I M).
    pose proof M as (_ & P & N & _). rewrite P, N. destruct (prim_normal _ _) as [n|]; [|reflexivity].
    pose proof ISO as (_ & (i & MI) & _).
    rewrite (moved_object_inverse s s' i MI I M), mtrans_mmul, mapply_mmul, (iso_trans_inverse i _ MI).
    rewrite iso_normalize by reflexivity.
    destruct (vnormalize _) as [u|]; [|reflexivity]. cbn [option_map]. rewrite mapply_scale. reflexivity.
  Qed.
End Iso.

(** *** Rays *)
(** what the history of a ray needs to know about two corresponding surfaces *)
Definition alike (m : mat) (s s' : surf) : Prop :=
  s_id s' = s_id s /\ s_mat s' = s_mat s /\
  forall p, vw p = 1 -> world_normal s' (mapply m p) = option_map (mapply m) (world_normal s p).
Lemma moved_alike : forall m, isometry m -> forall s s', is_inverse (s_world s) (s_obj s) -> moved_surf m s s' -> alike m s s'.
Proof.
  intros m ISO s s' I M. pose proof M as (A & _ & _ & B & _). split; [exact A|]. split; [exact B|].
  intros p _. apply (moved_normal m ISO s s' I M).
Qed.

Section Rays.
  Variable m : mat.
  Hypothesis ISO : isometry m.

  Lemma carry_forward : forall t c, carry m (forward t c) = forward t (carry m c).
  Proof.
    intros t c. unfold carry, forward, with_ray, ray_map. cbn [c_ray origin direction c_gen c_int c_wl c_idx c_id].
    rewrite mapply_add, mapply_scale. reflexivity.
  Qed.
  Lemma material_moved : forall s s' c, alike m s s' -> vw (origin (c_ray c)) = 1 -> vw (direction (c_ray c)) = 0 ->
    material_trace s' (carry m c) = option_map (carry m) (material_trace s c).
  Proof.
    intros s s' c (_ & M & N) O D. unfold material_trace. rewrite M. 
    change (origin (c_ray (carry m c))) with (mapply m (origin (c_ray c))).
    change (direction (c_ray (carry m c))) with (mapply m (direction (c_ray c))).
    change (c_wl (carry m c)) with (c_wl c). change (c_idx (carry m c)) with (c_idx c).
    destruct (s_mat s) as [| |ix|].
    - cbn [option_map]. f_equal. unfold with_direction, carry, with_ray, ray_map. cbn [c_ray origin direction].
      rewrite mapply_zero. reflexivity.
    - rewrite (N _ O). destruct (world_normal s _) as [n|] eqn:E; [|reflexivity]. cbn [option_map]. f_equal.
      rewrite (reflect_moved m ISO) by (auto; eapply world_normal_w; eauto). reflexivity.
    - rewrite (N _ O). destruct (world_normal s _) as [n|] eqn:E; [|reflexivity]. cbn [option_map].
      destruct (ix (c_wl c)) as [n2| | |]; try reflexivity.
      rewrite (refract_moved m ISO) by (auto; eapply world_normal_w; eauto).
      destruct (refract _ n _ n2 _) as [[d k]|]; reflexivity.
    - reflexivity.
  Qed.
End Rays.
