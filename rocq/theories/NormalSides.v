(** * NormalSides: a normal tells the directions that enter a solid from those that leave it *)
From Coq Require Import Reals List Bool ZArith Lra Psatz.
Import ListNotations.
From Verif Require Import XR Lin LinFacts Prim Csg Surf SpecGeom SpecTree SpecNormal BoxFacts TreeFacts SurfFacts NormalFacts SpecMedium.
Open Scope R_scope.

Lemma vdot_lin : forall a b c k, vdot a (vadd b (vscale k c)) = vdot a b + k * vdot a c.
Proof. intros [x y z w] [x1 y1 z1 w1] [x2 y2 z2 w2] k. unfold vdot, vadd, vscale; cbn [vx vy vz vw]. ring. Qed.
(** The plane that bounds a solid from one side is the only one where the solid fills a half space *)
Lemma half_space : forall n g, vw n = 0 -> vw g = 0 -> vdot g g <> 0 -> (forall d, vw d = 0 -> vdot g d < 0 -> vdot n d <= 0) ->
  forall d, vw d = 0 -> vdot n d < 0 -> vdot g d < 0.
Proof.
  intros n g WN WG GG H d WD ND. destruct (Rlt_dec (vdot g d) 0) as [|X]; auto. exfalso.
  assert (G0 : 0 < vdot g g). { destruct g as [a b c e]. unfold vdot in *; cbn [vx vy vz vw] in *. subst e. nra. }
  set (k := (- vdot n d / 2) / (Rabs (vdot n g) + 1)).
  assert (AB : 0 <= Rabs (vdot n g)) by apply Rabs_pos.
  assert (K : 0 < k) by (unfold k; apply Rdiv_lt_0_compat; lra).
  assert (KA : k * Rabs (vdot n g) <= - vdot n d / 2).
  { unfold k. apply Rle_trans with (- vdot n d / 2 / (Rabs (vdot n g) + 1) * (Rabs (vdot n g) + 1)); [|right; field; lra]. fold k. nra. }
  specialize (H (vadd (vscale (-1) d) (vscale (- k) g))). rewrite !vdot_lin, !vdot_scale_r in H.
  assert (W : vw (vadd (vscale (-1) d) (vscale (- k) g)) = 0) by (unfold vadd, vscale; cbn [vw]; rewrite WD, WG; ring).
  specialize (H W ltac:(nra)). pose proof (Rle_abs (vdot n g)). nra.
Qed.
(** Quadratics and lines just after 0 *)
Lemma soon_quad : forall a b c, c < 0 \/ (c = 0 /\ b < 0) -> exists eps, 0 < eps /\ forall t, 0 < t < eps -> a * (t * t) + b * t + c <= 0.
Proof.
  intros a b c [C|[-> B]].
  - exists (Rmin 1 (- c / (Rabs a + Rabs b + 1))). pose proof (Rabs_pos a). pose proof (Rabs_pos b).
    assert (P : 0 < - c / (Rabs a + Rabs b + 1)) by (apply Rdiv_lt_0_compat; lra). split; [apply Rmin_pos; lra|].
    intros t (T0 & T). assert (T1 : t < 1) by (eapply Rlt_le_trans; [exact T|apply Rmin_l]). assert (T2 : t < - c / (Rabs a + Rabs b + 1)) by (eapply Rlt_le_trans; [exact T|apply Rmin_r]).
    assert (T3 : t * (Rabs a + Rabs b + 1) < - c). { apply Rlt_le_trans with (- c / (Rabs a + Rabs b + 1) * (Rabs a + Rabs b + 1)); [nra|right; field; lra]. }
    pose proof (Rle_abs a). pose proof (Rle_abs b). assert (X1 : a * (t * t) <= Rabs a * (t * t)) by (apply Rmult_le_compat_r; nra). assert (X2 : Rabs a * (t * t) <= Rabs a * t) by (apply Rmult_le_compat_l; nra). assert (X3 : b * t <= Rabs b * t) by (apply Rmult_le_compat_r; lra). lra.
  - exists (- b / (Rabs a + 1)). pose proof (Rabs_pos a). assert (P : 0 < - b / (Rabs a + 1)) by (apply Rdiv_lt_0_compat; lra). split; auto.
    intros t (T0 & T). assert (T3 : t * (Rabs a + 1) < - b). { apply Rlt_le_trans with (- b / (Rabs a + 1) * (Rabs a + 1)); [nra|right; field; lra]. }
    pose proof (Rle_abs a). assert (X1 : a * t <= Rabs a * t) by (apply Rmult_le_compat_r; lra). assert (X2 : (a * t + b) * t <= 0 * t) by (apply Rmult_le_compat_r; lra). lra.
Qed.
Lemma soon_and : forall P Q : R -> Prop, (exists e, 0 < e /\ forall t, 0 < t < e -> P t) -> (exists e, 0 < e /\ forall t, 0 < t < e -> Q t) ->
  exists e, 0 < e /\ forall t, 0 < t < e -> P t /\ Q t.
Proof.
  intros P Q (e & E & H) (e' & E' & H'). exists (Rmin e e'). split; [apply Rmin_pos; auto|]. intros t (T0 & T).
  pose proof (Rmin_l e e'). pose proof (Rmin_r e e'). split; [apply H|apply H']; lra.
Qed.
Lemma soon_weaken : forall P Q : R -> Prop, (forall t, 0 < t -> P t -> Q t) -> (exists e, 0 < e /\ forall t, 0 < t < e -> P t) -> exists e, 0 < e /\ forall t, 0 < t < e -> Q t.
Proof. intros P Q H (e & E & X). exists e. split; auto. intros t T. apply H; [lra|auto]. Qed.
Lemma soon_below : forall x d b, x < b \/ (x = b /\ d < 0) -> exists e, 0 < e /\ forall t, 0 < t < e -> x + t * d <= b.
Proof. intros x d b H. apply (soon_weaken (fun t => 0 * (t * t) + d * t + (x - b) <= 0)); [intros; lra|]. apply soon_quad. destruct H as [?|[? ?]]; [left|right; split]; lra. Qed.
Lemma soon_above : forall x d a, a < x \/ (x = a /\ 0 < d) -> exists e, 0 < e /\ forall t, 0 < t < e -> a <= x + t * d.
Proof. intros x d a H. apply (soon_weaken (fun t => 0 * (t * t) + (- d) * t + (a - x) <= 0)); [intros; lra|]. apply soon_quad. destruct H as [?|[? ?]]; [left|right; split]; lra. Qed.

Definition enters_by (p : prim) (x g : v4) : Prop :=
  vw g = 0 /\ vdot g g <> 0 /\ forall d, vw d = 0 -> vdot g d < 0 -> exists eps, 0 < eps /\ forall t, 0 < t < eps -> solid p (ray_at (Ray x d) t).
Ltac vx4 := unfold vdot, ray_at in *; cbn [origin direction vx vy vz vw] in *.
Lemma sphere_enters : forall r x, r <> 0 -> smooth_at (PSphere r) x -> exists g, enters_by (PSphere r) x g.
Proof.
  intros r [x y z w] R S. cbn in S. exists (V4 x y z 0). split; [reflexivity|]. split; [vx4; nra|]. intros [a b c e] E D. vx4. subst e. cbn [solid vx vy vz].
  apply (soon_weaken (fun t => (a * a + b * b + c * c) * (t * t) + (2 * (x * a + y * b + z * c)) * t + 0 <= 0)); [intros; nra|]. apply soon_quad. right. split; [reflexivity|lra].
Qed.
Lemma cylinder_enters : forall r lo hi cap x, r <> 0 -> smooth_at (PCylinder r lo hi cap) x -> exists g, enters_by (PCylinder r lo hi cap) x g.
Proof.
  intros r lo hi cap [x y z w] R S. cbn in S. destruct S as [(S & Z)|(S & L & [-> | ->])].
  - exists (V4 x y 0 0). split; [reflexivity|]. split; [vx4; nra|]. intros [a b c e] E D. vx4. subst e. cbn [solid vx vy vz]. apply soon_and; [|apply soon_and; [apply soon_above|apply soon_below]; lra].
    apply (soon_weaken (fun t => (a * a + b * b) * (t * t) + (2 * (x * a + y * b)) * t + 0 <= 0)); [intros; nra|]. apply soon_quad. right. split; [reflexivity|lra].
  - exists (V4 0 0 (-1) 0). split; [reflexivity|]. split; [vx4; lra|]. intros [a b c e] E D. vx4. subst e. cbn [solid vx vy vz]. apply soon_and; [|apply soon_and; [apply soon_above|apply soon_below]; lra].
    apply (soon_weaken (fun t => (a * a + b * b) * (t * t) + (2 * (x * a + y * b)) * t + (x * x + y * y - r * r) <= 0)); [intros; nra|]. apply soon_quad. left. lra.
  - exists (V4 0 0 1 0). split; [reflexivity|]. split; [vx4; lra|]. intros [a b c e] E D. vx4. subst e. cbn [solid vx vy vz]. apply soon_and; [|apply soon_and; [apply soon_above|apply soon_below]; lra].
    apply (soon_weaken (fun t => (a * a + b * b) * (t * t) + (2 * (x * a + y * b)) * t + (x * x + y * y - r * r) <= 0)); [intros; nra|]. apply soon_quad. left. lra.
Qed.
Lemma paraboloid_enters : forall f h x, 0 < f -> 0 < h -> smooth_at (PParaboloid f h) x -> exists g, enters_by (PParaboloid f h) x g.
Proof.
  intros f h [x y z w] F H S. cbn in S. assert (Z : forall a b t, 0 < t -> forall z', (x + t * a) * (x + t * a) + (y + t * b) * (y + t * b) <= 4 * f * z' -> 0 <= z').
  { intros a b t T z' Q. pose proof (Rle_0_sqr (x + t * a)) as Q1. pose proof (Rle_0_sqr (y + t * b)) as Q2. unfold Rsqr in Q1, Q2. apply Rmult_le_reg_l with (4 * f); lra. }
  destruct S as [(S & L)|(S & ->)].
  - exists (V4 x y (- (2 * f)) 0). split; [reflexivity|]. split; [vx4; assert (0 < f * f) by nra; nra|]. intros [a b c e] E D. vx4. subst e. cbn [solid vx vy vz].
    apply (soon_weaken (fun t => (a * a + b * b) * (t * t) + (2 * (x * a + y * b - 2 * f * c)) * t + 0 <= 0 /\ z + t * c <= h)).
    + intros t T (Q & B). assert (X : (x + t * a) * (x + t * a) + (y + t * b) * (y + t * b) <= 4 * f * (z + t * c)) by nra. split; [exact X|]. split; [exact (Z a b t T _ X)|exact B].
    + apply soon_and; [apply soon_quad; right; split; [reflexivity|lra]|apply soon_below; lra].
  - exists (V4 0 0 1 0). split; [reflexivity|]. split; [vx4; lra|]. intros [a b c e] E D. vx4. subst e. cbn [solid vx vy vz].
    apply (soon_weaken (fun t => (a * a + b * b) * (t * t) + (2 * (x * a + y * b - 2 * f * c)) * t + (x * x + y * y - 4 * f * h) <= 0 /\ h + t * c <= h)).
    + intros t T (Q & B). assert (X : (x + t * a) * (x + t * a) + (y + t * b) * (y + t * b) <= 4 * f * (h + t * c)) by nra. split; [exact X|]. split; [exact (Z a b t T _ X)|exact B].
    + apply soon_and; [apply soon_quad; left; lra|apply soon_below; lra].
Qed.
Lemma slab_open : forall a b x d, Rmin a b < x < Rmax a b -> exists e, 0 < e /\ forall t, 0 < t < e -> between a b (x + t * d).
Proof. intros a b x d H. unfold between. apply soon_and; [apply soon_above|apply soon_below]; lra. Qed.
Lemma slab_face : forall a b x, a <> b /\ (x = a \/ x = b) -> exists k, (k = 1 \/ k = -1) /\ forall d, k * d < 0 -> exists e, 0 < e /\ forall t, 0 < t < e -> between a b (x + t * d).
Proof.
  intros a b x (N & X). assert (L : Rmin a b < Rmax a b) by (unfold Rmin, Rmax; destruct (Rle_dec a b); lra).
  assert (Y : x = Rmin a b \/ x = Rmax a b) by (unfold Rmin, Rmax; destruct (Rle_dec a b); lra). unfold between. destruct Y as [-> | ->].
  - exists (-1). split; [auto|]. intros d D. apply soon_and; [apply soon_above|apply soon_below]; lra.
  - exists 1. split; [auto|]. intros d D. apply soon_and; [apply soon_above|apply soon_below]; lra.
Qed.
Lemma cube_enters : forall c0 c1 x, smooth_at (PCube c0 c1) x -> exists g, enters_by (PCube c0 c1) x g.
Proof.
  intros [[x0 y0] z0] [[x1 y1] z1] [x y z w] S. cbn in S. destruct S as [(F & A & B)|[(A & F & B)|(A & B & F)]].
  - destruct (slab_face _ _ _ F) as (k & K & H). exists (V4 k 0 0 0). split; [reflexivity|]. split; [vx4; destruct K as [-> | ->]; lra|]. intros [a b c e] E D. vx4. subst e. cbn [solid vx vy vz].
    apply soon_and; [apply H; lra|apply soon_and; apply slab_open; auto].
  - destruct (slab_face _ _ _ F) as (k & K & H). exists (V4 0 k 0 0). split; [reflexivity|]. split; [vx4; destruct K as [-> | ->]; lra|]. intros [a b c e] E D. vx4. subst e. cbn [solid vx vy vz].
    apply soon_and; [apply slab_open; auto|apply soon_and; [apply H; lra|apply slab_open; auto]].
  - destruct (slab_face _ _ _ F) as (k & K & H). exists (V4 0 0 k 0). split; [reflexivity|]. split; [vx4; destruct K as [-> | ->]; lra|]. intros [a b c e] E D. vx4. subst e. cbn [solid vx vy vz].
    apply soon_and; [apply slab_open; auto|apply soon_and; [apply slab_open; auto|apply H; lra]].
Qed.
Lemma prim_enters : forall p x, prim_ok p -> smooth_at p x -> exists g, enters_by p x g.
Proof.
  intros [r|r lo hi cap|c0 c1|f h|w l] x OK S.
  - apply sphere_enters; auto.
  - apply cylinder_enters; auto. apply OK.
  - apply cube_enters; auto.
  - destruct OK. apply paraboloid_enters; auto.
  - destruct S.
Qed.
Lemma smooth_on_surface : forall p x, prim_ok p -> smooth_at p x -> on_surface p x.
Proof.
  intros [r|r lo hi cap|[[x0 y0] z0] [[x1 y1] z1]|f h|w l] [x y z w'] OK S; cbn in *.
  - exact S.
  - destruct S as [(S & Z)|(S & L & Z)]; (split; [split; [lra|destruct OK; lra]|]); [left; exact S|right; exact Z].
  - assert (O : forall a b v, Rmin a b < v < Rmax a b -> between a b v) by (intros a b v H; unfold between; lra).
    assert (F : forall a b v, a <> b /\ (v = a \/ v = b) -> between a b v) by (intros a b v (_ & H); unfold between, Rmin, Rmax; destruct (Rle_dec a b); lra).
    destruct S as [(A & B & C)|[(A & B & C)|(A & B & C)]]; (split; [repeat split; first [apply O; assumption|apply F; assumption]|]); tauto.
  - destruct S as [(S & L)|(S & ->)]; (split; [|auto]); repeat split; try lra; nra.
  - destruct S.
Qed.

(** The normal of a primitive has the solid behind it *)
Lemma prim_sided : forall p x, prim_ok p -> vw x = 1 -> smooth_at p x -> off_edges p x ->
  exists n, prim_normal p x = Some n /\ vdot n n = 1 /\ vw n = 0 /\ sided (solid p) x n.
Proof.
  intros p x OK W S O. destruct (prim_normal_outward p x OK (smooth_on_surface p x OK S) O) as (n & E & U & WN & H).
  destruct (prim_enters p x OK S) as (g & WG & GG & G). exists n. split; auto. split; auto. split; auto.
  assert (OUT : forall d t, vw d = 0 -> 0 < t -> solid p (ray_at (Ray x d) t) -> vdot n d <= 0).
  { intros d t WD T Q. specialize (H _ Q). replace (vsub (ray_at (Ray x d) t) x) with (vscale t d) in H.
    - rewrite vdot_scale_r in H. nra.
    - destruct x as [x y z w], d as [a b c e]. unfold vscale, vsub, vadd, vopp, ray_at; cbn [origin direction vx vy vz vw]. unfold vscale; cbn [vx vy vz vw]. f_equal; ring. }
  intros d WD. split.
  - intro N. apply G; auto. apply (half_space n g); auto. intros d' WD' D'. destruct (G d' WD' D') as (e & Ep & X). apply (OUT d' (e / 2) WD'); [lra|]. apply X. lra.
  - intro N. exists 1. split; [lra|]. intros t T Q. pose proof (OUT d t WD ltac:(lra) Q). lra.
Qed.

(** ... and so does the world normal of a placed one, up to its sign *)
Lemma placed_sided : forall f x, surf_ok f -> vw x = 1 -> s_nscale f = 1 \/ s_nscale f = -1 ->
  smooth_at (s_prim f) (mapply (s_obj f) x) -> off_edges (s_prim f) (mapply (s_obj f) x) ->
  exists n, world_normal f x = Some n /\ vdot n n = 1 /\ vw n = 0 /\ sided (placed f) x (vscale (s_nscale f) n).
Proof.
  intros f x OK W K S O. pose proof OK as (P & A & I).
  assert (AO : affine (s_obj f)) by (eapply affine_inverse; eauto).
  assert (WX : vw (mapply (s_obj f) x) = 1) by (rewrite affine_w; auto).
  destruct (prim_sided _ _ P WX S O) as (n & E & U & WN & SD).
  destruct (world_normal_spec f x n A I K E WN U) as (m & EM & UM & WM & PE & PO). exists m. split; auto. split; auto. split; auto.
  intros d WD. set (d' := mapply (s_obj f) d). assert (WD' : vw d' = 0) by (unfold d'; rewrite affine_w; auto).
  assert (DD : mapply (s_world f) d' = d) by (unfold d'; apply inverse_apply_r; auto).
  assert (DOT : vdot m d = vdot n d' * vdot m (mapply (s_world f) n)).
  { set (tg := vadd d' (vscale (- vdot n d') n)).
    assert (Z : vdot m (mapply (s_world f) tg) = 0). { apply PE; unfold tg; [unfold vadd, vscale; cbn [vw]; rewrite WD', WN; ring|]. rewrite vdot_lin, U. ring. }
    unfold tg in Z. rewrite mapply_add, mapply_scale, vdot_lin, DD in Z. lra. }
  assert (PT : forall t, placed f (ray_at (Ray x d) t) <-> solid (s_prim f) (ray_at (Ray (mapply (s_obj f) x) d') t)).
  { intro t. change (Ray (mapply (s_obj f) x) d') with (ray_map (s_obj f) (Ray x d)). rewrite ray_at_map. split.
    - intro H. refine (proj1 (placed_local f _ OK _) H). unfold ray_at; cbn [origin direction vw]; rewrite W, WD; ring.
    - intro H. exists (mapply (s_obj f) (ray_at (Ray x d) t)). split; [rewrite affine_w; auto; unfold ray_at; cbn [origin direction vw]; rewrite W, WD; ring|]. split; auto. apply inverse_apply_r; auto. }
  destruct (SD d' WD') as (IN & OUT). rewrite vdot_scale_l, DOT. split; intro H.
  - destruct IN as (e & Ep & X); [nra|]. exists e. split; auto. intros t T. apply PT. auto.
  - destruct OUT as (e & Ep & X); [nra|]. exists e. split; auto. intros t T Q. apply (X t T). apply PT. auto.
Qed.
