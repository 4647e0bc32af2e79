(** * LinFacts: matrix algebra *)
From Coq Require Import Reals List Bool Lra.
Import ListNotations.
From Verif Require Import Lin.
Open Scope R_scope.

Lemma v4_eq : forall a b : v4, vx a = vx b -> vy a = vy b -> vz a = vz b -> vw a = vw b -> a = b.
Proof. intros [] []; simpl; intros; congruence. Qed.

Lemma mat_eq : forall a b : mat, row0 a = row0 b -> row1 a = row1 b -> row2 a = row2 b -> row3 a = row3 b -> a = b.
Proof. intros [] []; simpl; intros; congruence. Qed.

Ltac vdestr :=
  repeat match goal with
  | v : v4 |- _ => destruct v
  | m : mat |- _ => destruct m
  | r : ray |- _ => destruct r
  end.
Ltac vsimp := cbv [mapply mmul mtrans vdot vadd vscale vsub vopp vset_w mid mscale ray_map
                   point vector row0 row1 row2 row3 vx vy vz vw origin direction] in *.
Ltac vring := intros; vdestr; vsimp; repeat first [apply v4_eq | apply mat_eq]; cbn [vx vy vz vw row0 row1 row2 row3]; ring.
Ltac veq := apply v4_eq; vsimp; cbn [vx vy vz vw].

Lemma mapply_mmul : forall a b v, mapply (mmul a b) v = mapply a (mapply b v).
Proof. intros; vdestr; vsimp; f_equal; ring. Qed.
Lemma mmul_assoc : forall a b c, mmul (mmul a b) c = mmul a (mmul b c).
Proof. intros; vdestr; vsimp; f_equal; f_equal; ring. Qed.
Lemma mapply_mid : forall v, mapply mid v = v.
Proof. intros; vdestr; vsimp; f_equal; ring. Qed.
Lemma mmul_mid_l : forall m, mmul mid m = m.
Proof. intros; vdestr; vsimp; f_equal; f_equal; ring. Qed.
Lemma mmul_mid_r : forall m, mmul m mid = m.
Proof. intros; vdestr; vsimp; f_equal; f_equal; ring. Qed.
Lemma mapply_add : forall m a b, mapply m (vadd a b) = vadd (mapply m a) (mapply m b).
Proof. intros; vdestr; vsimp; f_equal; ring. Qed.
Lemma mapply_scale : forall m k a, mapply m (vscale k a) = vscale k (mapply m a).
Proof. intros; vdestr; vsimp; f_equal; ring. Qed.
Lemma vdot_mtrans : forall m a b, vdot (mapply (mtrans m) a) b = vdot a (mapply m b).
Proof. intros; vdestr; vsimp; ring. Qed.
Lemma mtrans_mmul : forall a b, mtrans (mmul a b) = mmul (mtrans b) (mtrans a).
Proof. intros; vdestr; vsimp; f_equal; f_equal; ring. Qed.
Lemma mtrans_invol : forall a, mtrans (mtrans a) = a.
Proof. intros; vdestr; reflexivity. Qed.

Lemma madj_l : forall m, mmul (madj m) m = mscale (mdet m) mid.
Proof. intros; vdestr; unfold madj, mdet; vsimp; f_equal; f_equal; ring. Qed.
Lemma madj_r : forall m, mmul m (madj m) = mscale (mdet m) mid.
Proof. intros; vdestr; unfold madj, mdet; vsimp; f_equal; f_equal; ring. Qed.

Lemma mdet_mmul : forall a b, mdet (mmul a b) = mdet a * mdet b.
Proof. intros; vdestr; unfold mdet; vsimp; ring. Qed.
Lemma mdet_mid : mdet mid = 1.
Proof. unfold mdet; vsimp; ring. Qed.

Lemma mscale_mmul_l : forall k a b, mmul (mscale k a) b = mscale k (mmul a b).
Proof. intros; vdestr; vsimp; f_equal; f_equal; ring. Qed.
Lemma mscale_mmul_r : forall k a b, mmul a (mscale k b) = mscale k (mmul a b).
Proof. intros; vdestr; vsimp; f_equal; f_equal; ring. Qed.
Lemma mscale_mscale : forall k l a, mscale k (mscale l a) = mscale (k * l) a.
Proof. intros; vdestr; vsimp; f_equal; f_equal; ring. Qed.
Lemma mscale_1 : forall a, mscale 1 a = a.
Proof. intros; vdestr; vsimp; f_equal; f_equal; ring. Qed.

(** [is_inverse m i]: [i] is the two-sided inverse of [m] *)
Definition is_inverse (m i : mat) : Prop := mmul i m = mid /\ mmul m i = mid.

Lemma minv_some : forall m i, minv m = Some i -> is_inverse m i.
Proof.
  unfold minv, is_inverse; intros m i H. destruct (Req_EM_T (mdet m) 0); [discriminate|].
  injection H as <-. split.
  - rewrite mscale_mmul_l, madj_l, mscale_mscale, Rinv_l, mscale_1; auto.
  - rewrite mscale_mmul_r, madj_r, mscale_mscale, Rinv_l, mscale_1; auto.
Qed.

Lemma inverse_unique : forall m i j, mmul i m = mid -> mmul m j = mid -> i = j.
Proof.
  intros m i j H1 H2. rewrite <- (mmul_mid_r i), <- H2, <- mmul_assoc, H1, mmul_mid_l. auto.
Qed.

Lemma is_inverse_det : forall m i, is_inverse m i -> mdet m <> 0.
Proof.
  intros m i [H _] E. apply (f_equal mdet) in H. rewrite mdet_mmul, E, mdet_mid in H. lra.
Qed.

Lemma minv_is_inverse : forall m i, minv m = Some i <-> is_inverse m i.
Proof.
  split; [apply minv_some|]. intros H. pose proof (is_inverse_det m i H) as D.
  unfold minv. destruct (Req_EM_T (mdet m) 0); [contradiction|]. f_equal.
  symmetry. eapply inverse_unique; [apply H|].
  rewrite mscale_mmul_r, madj_r, mscale_mscale, Rinv_l, mscale_1; auto.
Qed.

Lemma minv_none : forall m, minv m = None <-> mdet m = 0.
Proof. intro m; unfold minv; destruct (Req_EM_T (mdet m) 0); split; intros; congruence. Qed.

Lemma is_inverse_sym : forall m i, is_inverse m i -> is_inverse i m.
Proof. unfold is_inverse; tauto. Qed.
Lemma is_inverse_mid : is_inverse mid mid.
Proof. split; apply mmul_mid_l. Qed.
Lemma is_inverse_mmul : forall a b ia ib, is_inverse a ia -> is_inverse b ib ->
  is_inverse (mmul a b) (mmul ib ia).
Proof.
  intros a b ia ib [A1 A2] [B1 B2]. split.
  - rewrite mmul_assoc, <- (mmul_assoc ia a b), A1, mmul_mid_l; auto.
  - rewrite mmul_assoc, <- (mmul_assoc b ib ia), B2, mmul_mid_l; auto.
Qed.

Lemma inverse_apply_l : forall m i v, is_inverse m i -> mapply i (mapply m v) = v.
Proof. intros m i v [H _]. rewrite <- mapply_mmul, H, mapply_mid; auto. Qed.
Lemma inverse_apply_r : forall m i v, is_inverse m i -> mapply m (mapply i v) = v.
Proof. intros m i v [_ H]. rewrite <- mapply_mmul, H, mapply_mid; auto. Qed.

(** affine matrices: last row (0,0,0,1) *)
Definition affine (m : mat) : Prop := row3 m = V4 0 0 0 1.
Lemma affine_mid : affine mid. Proof. reflexivity. Qed.
Lemma affine_mmul : forall a b, affine a -> affine b -> affine (mmul a b).
Proof.
  unfold affine; intros a b Ha Hb. vdestr; vsimp; subst.
  injection Ha as -> -> -> ->; injection Hb as -> -> -> ->. f_equal; ring.
Qed.
Lemma affine_w : forall m v, affine m -> vw (mapply m v) = vw v.
Proof. unfold affine; intros m v H. vdestr; vsimp; injection H as -> -> -> ->; ring. Qed.
Lemma affine_inverse : forall m i, is_inverse m i -> affine m -> affine i.
Proof.
  intros m i H A. unfold affine.
  assert (E : forall v, vw (mapply i v) = vw v).
  { intro v. rewrite <- (affine_w m (mapply i v) A), (inverse_apply_r m i v H). auto. }
  pose proof (E (V4 1 0 0 0)) as E0. pose proof (E (V4 0 1 0 0)) as E1.
  pose proof (E (V4 0 0 1 0)) as E2. pose proof (E (V4 0 0 0 1)) as E3.
  clear H A E. vdestr; vsimp. f_equal; lra.
Qed.

(** norms *)
Lemma vdot_self_nonneg : forall a, 0 <= vdot a a.
Proof.
  intro a; vdestr; vsimp.
  pose proof (Rle_0_sqr vx); pose proof (Rle_0_sqr vy); pose proof (Rle_0_sqr vz); pose proof (Rle_0_sqr vw).
  unfold Rsqr in *; lra.
Qed.
Lemma vdot_self_zero : forall a, vdot a a = 0 <-> a = V4 0 0 0 0.
Proof.
  intro a; split.
  - vdestr; vsimp. intro H.
    pose proof (Rle_0_sqr vx); pose proof (Rle_0_sqr vy); pose proof (Rle_0_sqr vz); pose proof (Rle_0_sqr vw).
    unfold Rsqr in *. f_equal; apply Rsqr_0_uniq; unfold Rsqr; lra.
  - intros ->. vsimp; ring.
Qed.
Lemma vnorm_sq : forall a, vnorm a * vnorm a = vdot a a.
Proof. intro a; unfold vnorm. apply sqrt_sqrt, vdot_self_nonneg. Qed.
Lemma vnorm_nonneg : forall a, 0 <= vnorm a.
Proof. intro; apply sqrt_pos. Qed.
Lemma vnorm_pos : forall a, vdot a a <> 0 -> 0 < vnorm a.
Proof. intros a H. apply sqrt_lt_R0. pose proof (vdot_self_nonneg a). lra. Qed.

Lemma vdot_scale_l : forall k a b, vdot (vscale k a) b = k * vdot a b.
Proof. intros; vdestr; vsimp; ring. Qed.
Lemma vdot_scale_r : forall k a b, vdot a (vscale k b) = k * vdot a b.
Proof. intros; vdestr; vsimp; ring. Qed.
Lemma vdot_comm : forall a b, vdot a b = vdot b a.
Proof. intros; vdestr; vsimp; ring. Qed.
Lemma vdot_add_l : forall a b c, vdot (vadd a b) c = vdot a c + vdot b c.
Proof. intros; vdestr; vsimp; ring. Qed.
Lemma vdot_add_r : forall a b c, vdot c (vadd a b) = vdot c a + vdot c b.
Proof. intros; vdestr; vsimp; ring. Qed.
Lemma vdot_opp_l : forall a b, vdot (vopp a) b = - vdot a b.
Proof. intros; vdestr; vsimp; ring. Qed.
Lemma vdot_opp_r : forall a b, vdot a (vopp b) = - vdot a b.
Proof. intros; vdestr; vsimp; ring. Qed.
Lemma vscale_vscale : forall k l a, vscale k (vscale l a) = vscale (k * l) a.
Proof. intros; vdestr; vsimp; f_equal; ring. Qed.
Lemma vscale_1 : forall a, vscale 1 a = a.
Proof. intros; vdestr; vsimp; f_equal; ring. Qed.

Lemma vnormalize_some : forall a u, vnormalize a = Some u ->
  u = vscale (/ vnorm a) a /\ vdot u u = 1 /\ 0 < vnorm a.
Proof.
  unfold vnormalize; intros a u H. destruct (Req_EM_T (vdot a a) 0); [discriminate|].
  injection H as <-. pose proof (vnorm_pos a n). repeat split; auto.
  rewrite vdot_scale_l, vdot_scale_r, <- vnorm_sq. field. lra.
Qed.
Lemma vnormalize_none : forall a, vnormalize a = None <-> a = V4 0 0 0 0.
Proof.
  intro a. rewrite <- vdot_self_zero. unfold vnormalize. destruct (Req_EM_T (vdot a a) 0); split; intros; congruence.
Qed.
Lemma vnormalize_unit : forall a, vdot a a = 1 -> vnormalize a = Some a.
Proof.
  intros a H. unfold vnormalize. destruct (Req_EM_T (vdot a a) 0); [lra|].
  unfold vnorm. rewrite H, sqrt_1, Rinv_1, vscale_1. auto.
Qed.
Lemma vnormalize_nonzero : forall a, a <> V4 0 0 0 0 -> exists u, vnormalize a = Some u.
Proof.
  intros a H. destruct (vnormalize a) eqn:E; eauto. apply vnormalize_none in E. contradiction.
Qed.
