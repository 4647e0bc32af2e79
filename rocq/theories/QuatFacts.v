(** * QuatFacts: quaternions of rotation matrices *)
From Coq Require Import Reals List Bool Lra Lia.
Import ListNotations.
From Verif Require Import XR XRFacts Lin LinFacts Prim Csg Surf World SpecWorld Quat SpecQuat WorldFacts3.
Open Scope R_scope.

(** the matrix of [turned_by] *)
Definition qmat_like (q : quat) (m : mat) : Prop :=
  let x := qx q in let y := qy q in let z := qz q in let w := qw q in
  vx (row0 m) = 1 - 2 * (y * y + z * z) /\ vy (row0 m) = 2 * (x * y - z * w) /\ vz (row0 m) = 2 * (x * z + y * w) /\
  vx (row1 m) = 2 * (x * y + z * w) /\ vy (row1 m) = 1 - 2 * (x * x + z * z) /\ vz (row1 m) = 2 * (y * z - x * w) /\
  vx (row2 m) = 2 * (x * z - y * w) /\ vy (row2 m) = 2 * (y * z + x * w) /\ vz (row2 m) = 1 - 2 * (x * x + y * y).

Lemma qmat_turns : forall q m a b c, unit_quat q -> affine m -> qmat_like q m ->
  mapply m (vector a b c) = turned_by q (vector a b c).
Proof.
  intros [x y z w] [[a0 a1 a2 a3] [b0 b1 b2 b3] [c0 c1 c2 c3] d] a b c U A H.
  unfold qmat_like in H; cbn [qx qy qz qw row0 row1 row2 row3 vx vy vz vw] in H.
  destruct H as (-> & -> & -> & -> & -> & -> & -> & -> & ->). unfold affine in A; cbn [row3] in A. subst d.
  unfold unit_quat in U; cbn [qx qy qz qw] in U.
  unfold turned_by, qmul, qconj, mapply, vdot, vector; cbn [qx qy qz qw row0 row1 row2 row3 vx vy vz vw].
  assert (E : w * w = 1 - x * x - y * y - z * z) by lra.
  f_equal; ring_simplify; replace (w ^ 2) with (w * w) by ring; rewrite ?E; ring.
Qed.

Lemma qmul_unit : forall p q, unit_quat p -> unit_quat q -> unit_quat (qmul p q).
Proof.
  intros [a b c d] [x y z w]. unfold unit_quat, qmul; cbn [qx qy qz qw]. intros P U.
  transitivity ((a * a + b * b + c * c + d * d) * (x * x + y * y + z * z + w * w)); [ring|rewrite P, U; ring].
Qed.
Lemma qone_unit : unit_quat qone. Proof. unfold unit_quat, qone; cbn [qx qy qz qw]. ring. Qed.
Lemma qpower_unit : forall n q, unit_quat q -> unit_quat (qpower n q).
Proof. induction n; intros q U; [apply qone_unit|cbn [qpower]; apply qmul_unit; auto]. Qed.

Lemma qmul_assoc : forall p q r, qmul (qmul p q) r = qmul p (qmul q r).
Proof. intros [a b c d] [x y z w] [e f g h]. unfold qmul; cbn [qx qy qz qw]. f_equal; ring. Qed.
Lemma qconj_qmul : forall p q, qconj (qmul p q) = qmul (qconj q) (qconj p).
Proof. intros [a b c d] [x y z w]. unfold qmul, qconj; cbn [qx qy qz qw]. f_equal; ring. Qed.
Lemma turned_pure : forall q v, qw (qmul (qmul q (Q (vx v) (vy v) (vz v) 0)) (qconj q)) = 0.
Proof. intros [x y z w] [a b c d]. unfold qmul, qconj; cbn [qx qy qz qw vx vy vz vw]. ring. Qed.
Lemma turned_twice : forall p q v, turned_by p (turned_by q v) = turned_by (qmul p q) v.
Proof.
  intros p q v. unfold turned_by. cbn zeta. rewrite qconj_qmul. pose proof (turned_pure q v) as W. rewrite !qmul_assoc in *.
  set (u := qmul q (qmul (Q (vx v) (vy v) (vz v) 0) (qconj q))) in *. cbn [vx vy vz vw].
  assert (E : Q (qx u) (qy u) (qz u) 0 = u) by (rewrite <- W; destruct u; reflexivity). rewrite E.
  unfold u. rewrite !qmul_assoc. reflexivity.
Qed.
Lemma qmat_mmul : forall p q a b, unit_quat p -> unit_quat q -> affine a -> affine b -> qmat_like p a -> qmat_like q b ->
  qmat_like (qmul p q) (mmul a b).
Proof.
  intros p q a b P U A B Ha Hb. pose proof (qmul_unit p q P U) as PU.
  assert (T : forall x y z, mapply (mmul a b) (vector x y z) = turned_by (qmul p q) (vector x y z)).
  { intros x y z. rewrite mapply_mmul, (qmat_turns q b) by auto. rewrite <- turned_twice.
    unfold turned_by at 1 3. cbn zeta. change (vw (vector x y z)) with 0.
    match goal with |- mapply a (V4 ?u ?v ?w 0) = _ => change (V4 u v w 0) with (vector u v w) end.
    apply (qmat_turns p a); auto. }
  pose proof (T 1 0 0) as T1. pose proof (T 0 1 0) as T2. pose proof (T 0 0 1) as T3. clear T Ha Hb P U.
  destruct (qmul p q) as [x y z w]. destruct (mmul a b) as [[a0 a1 a2 a3] [b0 b1 b2 b3] [c0 c1 c2 c3] d].
  unfold unit_quat in PU; cbn [qx qy qz qw] in PU.
  unfold turned_by, qmul, qconj, mapply, vdot, vector in T1, T2, T3; cbn [qx qy qz qw row0 row1 row2 row3 vx vy vz vw] in T1, T2, T3.
  injection T1 as E1 E2 E3 _. injection T2 as F1 F2 F3 _. injection T3 as G1 G2 G3 _.
  unfold qmat_like; cbn [qx qy qz qw row0 row1 row2 row3 vx vy vz vw].
  repeat split; lra.
Qed.
Lemma qmat_mid : qmat_like qone mid.
Proof. unfold qmat_like, qone, mid; cbn [qx qy qz qw row0 row1 row2 row3 vx vy vz vw]. repeat split; ring. Qed.
Lemma qmat_power : forall n q m, unit_quat q -> affine m -> qmat_like q m -> qmat_like (qpower n q) (SpecWorld.power n m).
Proof.
  induction n; intros q m U A H; [apply qmat_mid|]. cbn [qpower SpecWorld.power]. apply qmat_mmul; auto.
  - apply qpower_unit; auto.
  - apply power_affine; auto.
Qed.

(** the quaternion is what the conversion finds, up to sign *)
Lemma argmax4_spec : forall a b c d, let k := argmax4 a b c d in let v := nth k [a; b; c; d] 0 in
  (k < 4)%nat /\ a <= v /\ b <= v /\ c <= v /\ d <= v.
Proof.
  intros a b c d. unfold argmax4. cbn zeta.
  destruct (rltb a b) eqn:E1; cbn [fst snd].
  all: destruct (rltb _ c) eqn:E2; cbn [fst snd].
  all: destruct (rltb _ d) eqn:E3; cbn [nth].
  all: repeat match goal with
    | H : rltb _ _ = true |- _ => apply rltb_true in H
    | H : rltb _ _ = false |- _ => apply rltb_false in H end.
  all: split; [auto with arith|lra].
Qed.
Definition qscale (k : R) (q : quat) : quat := Q (k * qx q) (k * qy q) (k * qz q) (k * qw q).
Lemma qnormalize_scale : forall k q, 0 < k -> unit_quat q -> qnormalize (qscale k q) = q.
Proof.
  intros k [x y z w] K U. unfold unit_quat in U; cbn [qx qy qz qw] in U. unfold qnormalize, qscale; cbn [qx qy qz qw].
  replace (k * x * (k * x) + k * y * (k * y) + k * z * (k * z) + k * w * (k * w)) with (k * k).
  2: { transitivity (k * k * (x * x + y * y + z * z + w * w)); [rewrite U; ring|ring]. }
  rewrite sqrt_square by lra. destruct (Req_EM_T k 0); [lra|]. f_equal; field; lra.
Qed.
Lemma qscale_opp : forall k q, qscale k q = qscale (- k) (qscale (-1) q).
Proof. intros k [x y z w]. unfold qscale; cbn [qx qy qz qw]. f_equal; ring. Qed.
Lemma unit_opp : forall q, unit_quat q -> unit_quat (qscale (-1) q).
Proof. intros [x y z w]. unfold unit_quat, qscale; cbn [qx qy qz qw]. lra. Qed.
Definition qabs_le (q : quat) (k : R) : Prop := Rabs (qx q) <= k /\ Rabs (qy q) <= k /\ Rabs (qz q) <= k /\ Rabs (qw q) <= k.
Lemma sq_abs : forall a b, a * a <= b * b -> Rabs a <= Rabs b.
Proof. intros a b H. apply Rsqr_le_abs_0. unfold Rsqr. exact H. Qed.

Lemma raw_is_column : forall q m, unit_quat q -> qmat_like q m ->
  exists k, raw_quat m = qscale (4 * k) q /\ (k = qx q \/ k = qy q \/ k = qz q \/ k = qw q) /\ k <> 0 /\ qabs_le q (Rabs k).
Proof.
  intros [x y z w] [[a0 a1 a2 a3] [b0 b1 b2 b3] [c0 c1 c2 c3] d] U H.
  unfold qmat_like in H; cbn [qx qy qz qw row0 row1 row2 row3 vx vy vz vw] in H.
  destruct H as (-> & -> & -> & -> & -> & -> & -> & -> & ->). unfold unit_quat in U; cbn [qx qy qz qw] in U.
  unfold raw_quat, mat_at, vec_at; cbn [row0 row1 row2 row3 vx vy vz vw].
  match goal with |- context [argmax4 ?a ?b ?c ?d] => pose proof (argmax4_spec a b c d) as S; cbn zeta in S; set (n := argmax4 a b c d) in * end.
  destruct S as (L & S1 & S2 & S3 & S4). clearbody n.
  assert (Z : forall k, x * x <= k * k -> y * y <= k * k -> z * z <= k * k -> w * w <= k * k -> k <> 0 /\ qabs_le (Q x y z w) (Rabs k)).
  { intros k K1 K2 K3 K4. split; [intros ->; lra|]. unfold qabs_le; cbn [qx qy qz qw]. repeat split; apply sq_abs; auto. }
  destruct n as [|[|[|[|n]]]]; cbn [nth] in S1, S2, S3, S4.
  - exists x. split; [unfold qscale; cbn [qx qy qz qw]; f_equal; lra|]. cbn [qx qy qz qw]. split; [auto|]. apply Z; lra.
  - exists y. split; [unfold qscale; cbn [qx qy qz qw]; f_equal; lra|]. cbn [qx qy qz qw]. split; [auto|]. apply Z; lra.
  - exists z. split; [unfold qscale; cbn [qx qy qz qw]; f_equal; lra|]. cbn [qx qy qz qw]. split; [auto|]. apply Z; lra.
  - exists w. split; [unfold qscale; cbn [qx qy qz qw]; f_equal; lra|]. cbn [qx qy qz qw]. split; [auto|]. apply Z; lra.
  - exfalso. lia.
Qed.
Lemma found : forall q m, unit_quat q -> qmat_like q m ->
  same_rotation (from_matrix m) q /\ leading_positive (from_matrix m).
Proof.
  intros q m U H. destruct (raw_is_column q m U H) as (k & E & I & N & B). unfold from_matrix. rewrite E.
  destruct (Rlt_le_dec 0 k) as [P|P].
  - rewrite qnormalize_scale by (auto; lra). split; [left; auto|]. exists k. rewrite Rabs_pos_eq in B by lra. split; [exact I|]. split; auto.
  - rewrite qscale_opp, qnormalize_scale; [|lra|apply unit_opp; auto]. split.
    + right. destruct q as [x y z w]. unfold qscale; cbn [qx qy qz qw]. f_equal; ring.
    + exists (- k). rewrite Rabs_left1 in B by lra. destruct q as [x y z w]. unfold qabs_le, qscale in *; cbn [qx qy qz qw] in *.
      split; [destruct I as [-> | [-> | [-> | ->]]]; [left|right; left|right; right; left|right; right; right]; ring|].
      split; [lra|]. replace (-1 * x) with (- x) by ring. replace (-1 * y) with (- y) by ring. replace (-1 * z) with (- z) by ring.
      replace (-1 * w) with (- w) by ring. rewrite !Rabs_Ropp. exact B.
Qed.
Lemma same_unit : forall p q, same_rotation p q -> unit_quat q -> unit_quat p.
Proof. intros p [x y z w] [-> | ->] U; auto. unfold unit_quat in *; cbn [qx qy qz qw] in *. lra. Qed.
Lemma same_qmat : forall p q m, same_rotation p q -> qmat_like q m -> qmat_like p m.
Proof.
  intros p [x y z w] m [-> | ->] H; auto. unfold qmat_like in *; cbn [qx qy qz qw] in *.
  destruct H as (E1 & E2 & E3 & E4 & E5 & E6 & E7 & E8 & E9). repeat split; lra.
Qed.
Lemma same_sym : forall p q, same_rotation p q -> same_rotation q p.
Proof. intros p [x y z w] [-> | ->]; [left; auto|right]. cbn [qx qy qz qw]. f_equal; ring. Qed.
Lemma same_trans : forall p q r, same_rotation p q -> same_rotation q r -> same_rotation p r.
Proof.
  intros p q r [-> | ->] [-> | ->]; [left; auto|right; auto|right; auto|left]. destruct r as [x y z w]. cbn [qx qy qz qw]. f_equal; ring.
Qed.
Lemma same_mul : forall p p' q q', same_rotation p p' -> same_rotation q q' -> same_rotation (qmul p q) (qmul p' q').
Proof.
  intros p [a b c d] q [x y z w] [-> | ->] [-> | ->]; [left; auto|right|right|left]; unfold qmul; cbn [qx qy qz qw]; f_equal; ring.
Qed.
Lemma qmat_unique : forall p q m, unit_quat p -> unit_quat q -> qmat_like p m -> qmat_like q m -> same_rotation p q.
Proof.
  intros p q m P U Hp Hq. destruct (found p m P Hp) as [A _]. destruct (found q m U Hq) as [B _].
  eapply same_trans; [apply same_sym, A|exact B].
Qed.

(** the quaternions of movements *)
Lemma motion_qmat : forall m t, rigid m -> motion_matrix m = Some t -> unit_quat (motion_quat m) /\ qmat_like (motion_quat m) t.
Proof.
  assert (S : forall a, sin (2 * a) = 2 * sin a * cos a) by (intro; apply sin_2a).
  assert (C : forall a, cos (2 * a) = 1 - 2 * (sin a * sin a)) by (intro; rewrite cos_2a_sin; ring).
  intros [x y z|x y z|a u|a u|a u|m] t Rg M; try destruct Rg; cbn [motion_matrix] in M.
  { injection M as <-. split; [apply qone_unit|]. unfold qmat_like, motion_quat, qone; cbn [qx qy qz qw row0 row1 row2 row3 vx vy vz vw]. repeat split; ring. }
  all: assert (E : exists b, sin_cos a u = Some (sin (2 * b), cos (2 * b)) /\ half_angle a u = b)
    by (destruct u; cbn [sin_cos] in *; [exists (a * PI / 180 / 2)|exists (a / 2)|discriminate];
        (split; [f_equal; f_equal; f_equal; field|reflexivity])).
  all: destruct E as (b & E & Hb); rewrite E in M; injection M as <-; unfold motion_quat; rewrite Hb, S, C.
  all: pose proof (sc b) as T; unfold unit_quat, qmat_like; cbn [qx qy qz qw row0 row1 row2 row3 vx vy vz vw].
  all: split; [lra|]; repeat split; lra.
Qed.

(** every rotation matrix has a quaternion *)
Lemma rotates_entries : forall m, rotates m ->
  let a0 := vx (row0 m) in let a1 := vy (row0 m) in let a2 := vz (row0 m) in
  let b0 := vx (row1 m) in let b1 := vy (row1 m) in let b2 := vz (row1 m) in
  let c0 := vx (row2 m) in let c1 := vy (row2 m) in let c2 := vz (row2 m) in
  a0 * a0 + b0 * b0 + c0 * c0 = 1 /\ a1 * a1 + b1 * b1 + c1 * c1 = 1 /\ a2 * a2 + b2 * b2 + c2 * c2 = 1 /\
  a0 * a1 + b0 * b1 + c0 * c1 = 0 /\ a0 * a2 + b0 * b2 + c0 * c2 = 0 /\ a1 * a2 + b1 * b2 + c1 * c2 = 0 /\
  a0 * (b1 * c2 - b2 * c1) - a1 * (b0 * c2 - b2 * c0) + a2 * (b0 * c1 - b1 * c0) = 1.
Proof.
  intros [[a0 a1 a2 a3] [b0 b1 b2 b3] [c0 c1 c2 c3] d] (A & I & D). unfold affine in A; cbn [row3] in A. subst d.
  cbn [row0 row1 row2 row3 vx vy vz vw].
  pose proof (I (V4 1 0 0 0) eq_refl) as I1. pose proof (I (V4 0 1 0 0) eq_refl) as I2. pose proof (I (V4 0 0 1 0) eq_refl) as I3.
  pose proof (I (V4 1 1 0 0) eq_refl) as I4. pose proof (I (V4 1 0 1 0) eq_refl) as I5. pose proof (I (V4 0 1 1 0) eq_refl) as I6. clear I.
  unfold mapply, vdot in *; cbn [row0 row1 row2 row3 vx vy vz vw] in *. unfold mdet in D; cbn [row0 row1 row2 row3 vx vy vz vw] in D.
  repeat split; lra.
Qed.
Lemma sum_zero3 : forall a b c, a * a + b * b + c * c = 0 -> a = 0 /\ b = 0 /\ c = 0.
Proof. intros a b c H. pose proof (Rle_0_sqr a) as A. pose proof (Rle_0_sqr b) as B. pose proof (Rle_0_sqr c) as C. unfold Rsqr in *.
  repeat split; apply Rsqr_0_uniq; unfold Rsqr; lra. Qed.
Lemma cross_of_orthonormal : forall a0 b0 c0 a1 b1 c1 a2 b2 c2,
  a0 * a0 + b0 * b0 + c0 * c0 = 1 -> a1 * a1 + b1 * b1 + c1 * c1 = 1 -> a2 * a2 + b2 * b2 + c2 * c2 = 1 ->
  a1 * a2 + b1 * b2 + c1 * c2 = 0 ->
  a0 * (b1 * c2 - b2 * c1) + b0 * (c1 * a2 - c2 * a1) + c0 * (a1 * b2 - a2 * b1) = 1 ->
  a0 = b1 * c2 - b2 * c1 /\ b0 = c1 * a2 - c2 * a1 /\ c0 = a1 * b2 - a2 * b1.
Proof.
  intros a0 b0 c0 a1 b1 c1 a2 b2 c2 N0 N1 N2 O D.
  destruct (sum_zero3 (b1 * c2 - b2 * c1 - a0) (c1 * a2 - c2 * a1 - b0) (a1 * b2 - a2 * b1 - c0)) as (E1 & E2 & E3); [|lra].
  transitivity ((a1 * a1 + b1 * b1 + c1 * c1) * (a2 * a2 + b2 * b2 + c2 * c2) - (a1 * a2 + b1 * b2 + c1 * c2) * (a1 * a2 + b1 * b2 + c1 * c2)
    - 2 * (a0 * (b1 * c2 - b2 * c1) + b0 * (c1 * a2 - c2 * a1) + c0 * (a1 * b2 - a2 * b1)) + (a0 * a0 + b0 * b0 + c0 * c0)).
  - ring.
  - rewrite N0, N1, N2, O, D. ring.
Qed.
Lemma quat_of_column : forall x y z w t, 0 < t -> x * x + y * y + z * z + w * w = 4 * t -> forall m,
  (* the column (x, y, z, w) of 4 q q^T and its diagonal entry t *)
  let e := fun i j => mat_at m i j in
  x * x = t * (1 + e 0%nat 0%nat - e 1%nat 1%nat - e 2%nat 2%nat) ->
  y * y = t * (1 - e 0%nat 0%nat + e 1%nat 1%nat - e 2%nat 2%nat) ->
  z * z = t * (1 - e 0%nat 0%nat - e 1%nat 1%nat + e 2%nat 2%nat) ->
  x * y = t * (e 0%nat 1%nat + e 1%nat 0%nat) -> x * z = t * (e 0%nat 2%nat + e 2%nat 0%nat) -> y * z = t * (e 1%nat 2%nat + e 2%nat 1%nat) ->
  x * w = t * (e 2%nat 1%nat - e 1%nat 2%nat) -> y * w = t * (e 0%nat 2%nat - e 2%nat 0%nat) -> z * w = t * (e 1%nat 0%nat - e 0%nat 1%nat) ->
  exists q, unit_quat q /\ qmat_like q m.
Proof.
  intros x y z w t T N m e. unfold e; clear e. unfold mat_at, vec_at.
  destruct m as [[a0 a1 a2 a3] [b0 b1 b2 b3] [c0 c1 c2 c3] d]. cbn [row0 row1 row2 row3 vx vy vz vw].
  intros X Y Z XY XZ YZ XW YW ZW. set (r := 2 * sqrt t).
  assert (R : r * r = 4 * t) by (unfold r; transitivity (4 * (sqrt t * sqrt t)); [ring|rewrite sqrt_sqrt by lra; ring]).
  assert (R0 : r <> 0) by (intro H; rewrite H in R; lra).
  assert (P : forall a b, a / r * (b / r) = a * b / (4 * t)) by (intros; rewrite <- R; field; auto).
  exists (Q (x / r) (y / r) (z / r) (w / r)). unfold unit_quat, qmat_like; cbn [qx qy qz qw row0 row1 row2 row3 vx vy vz vw]. rewrite !P.
  split.
  - transitivity ((x * x + y * y + z * z + w * w) / (4 * t)); [field; lra|rewrite N; field; lra].
  - rewrite X, Y, Z, XY, XZ, YZ, XW, YW, ZW. repeat split; field; lra.
Qed.
Lemma rotates_quat : forall m, rotates m -> exists q, unit_quat q /\ qmat_like q m.
Proof.
  intros m H. pose proof (rotates_entries m H) as E. cbn zeta in E. clear H.
  destruct E as (N0 & N1 & N2 & O01 & O02 & O12 & D).
  set (e := mat_at m).
  change (vx (row0 m)) with (e 0%nat 0%nat) in *. change (vy (row0 m)) with (e 0%nat 1%nat) in *. change (vz (row0 m)) with (e 0%nat 2%nat) in *.
  change (vx (row1 m)) with (e 1%nat 0%nat) in *. change (vy (row1 m)) with (e 1%nat 1%nat) in *. change (vz (row1 m)) with (e 1%nat 2%nat) in *.
  change (vx (row2 m)) with (e 2%nat 0%nat) in *. change (vy (row2 m)) with (e 2%nat 1%nat) in *. change (vz (row2 m)) with (e 2%nat 2%nat) in *.
  pose proof (fun x y z w t T N => quat_of_column x y z w t T N m) as Q. cbn zeta in Q. fold e in Q.
  destruct (cross_of_orthonormal (e 0%nat 0%nat) (e 1%nat 0%nat) (e 2%nat 0%nat) (e 0%nat 1%nat) (e 1%nat 1%nat) (e 2%nat 1%nat) (e 0%nat 2%nat) (e 1%nat 2%nat) (e 2%nat 2%nat)) as (A1 & A2 & A3); try lra.
  destruct (cross_of_orthonormal (e 0%nat 1%nat) (e 1%nat 1%nat) (e 2%nat 1%nat) (e 0%nat 2%nat) (e 1%nat 2%nat) (e 2%nat 2%nat) (e 0%nat 0%nat) (e 1%nat 0%nat) (e 2%nat 0%nat)) as (B1 & B2 & B3); try lra.
  destruct (cross_of_orthonormal (e 0%nat 2%nat) (e 1%nat 2%nat) (e 2%nat 2%nat) (e 0%nat 0%nat) (e 1%nat 0%nat) (e 2%nat 0%nat) (e 0%nat 1%nat) (e 1%nat 1%nat) (e 2%nat 1%nat)) as (C1 & C2 & C3); try lra.
  set (a0 := e 0%nat 0%nat) in *. set (a1 := e 0%nat 1%nat) in *. set (a2 := e 0%nat 2%nat) in *.
  set (b0 := e 1%nat 0%nat) in *. set (b1 := e 1%nat 1%nat) in *. set (b2 := e 1%nat 2%nat) in *.
  set (c0 := e 2%nat 0%nat) in *. set (c1 := e 2%nat 1%nat) in *. set (c2 := e 2%nat 2%nat) in *.
  clearbody a0 a1 a2 b0 b1 b2 c0 c1 c2. clear e.
  assert (M0 : a0 * a0 + a1 * a1 + a2 * a2 = 1) by (rewrite A1 at 1; rewrite B1 at 1; rewrite C1 at 1; lra).
  assert (M1 : b0 * b0 + b1 * b1 + b2 * b2 = 1) by (rewrite A2 at 1; rewrite B2 at 1; rewrite C2 at 1; lra).
  assert (M2 : c0 * c0 + c1 * c1 + c2 * c2 = 1) by (rewrite A3 at 1; rewrite B3 at 1; rewrite C3 at 1; lra).
  assert (P01 : a0 * b0 + a1 * b1 + a2 * b2 = 0) by (rewrite A1, B1, C1; ring).
  assert (P02 : a0 * c0 + a1 * c1 + a2 * c2 = 0) by (rewrite A1, B1, C1; ring).
  assert (P12 : b0 * c0 + b1 * c1 + b2 * c2 = 0) by (rewrite A2, B2, C2; ring).
  clear D.
  destruct (Rlt_le_dec 0 (1 + a0 + b1 + c2)) as [T|T].
  { apply (Q (c1 - b2) (a2 - c0) (b0 - a1) (1 + a0 + b1 + c2) (1 + a0 + b1 + c2)); clear Q; auto; lra. }
  destruct (Rlt_le_dec 0 (1 + a0 - b1 - c2)) as [T1|T1].
  { apply (Q (1 + a0 - b1 - c2) (a1 + b0) (a2 + c0) (c1 - b2) (1 + a0 - b1 - c2)); clear Q; auto; lra. }
  destruct (Rlt_le_dec 0 (1 - a0 + b1 - c2)) as [T2|T2].
  { apply (Q (a1 + b0) (1 - a0 + b1 - c2) (b2 + c1) (a2 - c0) (1 - a0 + b1 - c2)); clear Q; auto; lra. }
  apply (Q (a2 + c0) (b2 + c1) (1 - a0 - b1 + c2) (b0 - a1) (1 - a0 - b1 + c2)); clear Q; auto; lra.
Qed.
