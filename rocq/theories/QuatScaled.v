(** * QuatScaled: the reported rotation of evenly scaled objects *)
From Coq Require Import Reals List Bool Lra Lia Psatz.
Import ListNotations.
From Verif Require Import XR XRFacts Lin LinFacts World Quat SpecQuat QuatFacts SpecQuatScaled.
Open Scope R_scope.

Definition qmat_times (s : R) (q : quat) (m : mat) : Prop :=
  let x := qx q in let y := qy q in let z := qz q in let w := qw q in
  vx (row0 m) = s * (1 - 2 * (y * y + z * z)) /\ vy (row0 m) = s * (2 * (x * y - z * w)) /\ vz (row0 m) = s * (2 * (x * z + y * w)) /\
  vx (row1 m) = s * (2 * (x * y + z * w)) /\ vy (row1 m) = s * (1 - 2 * (x * x + z * z)) /\ vz (row1 m) = s * (2 * (y * z - x * w)) /\
  vx (row2 m) = s * (2 * (x * z - y * w)) /\ vy (row2 m) = s * (2 * (y * z + x * w)) /\ vz (row2 m) = s * (1 - 2 * (x * x + y * y)).
Lemma times_of : forall o q s, unit_quat q -> turns_and_stretches q s o -> qmat_times s q (get_world_transform o).
Proof.
  intros o q s Uq Hq. pose proof (Hq 1 0 0) as T1. pose proof (Hq 0 1 0) as T2. pose proof (Hq 0 0 1) as T3. clear Hq.
  unfold to_world_coordinates, get_world_transform in *. destruct q as [x y z w]. destruct (o_world o) as [[a0 a1 a2 a3] [b0 b1 b2 b3] [c0 c1 c2 c3] d].
  unfold unit_quat in Uq; cbn [qx qy qz qw] in Uq.
  unfold turned_by, qmul, qconj, mapply, vdot, vector, vscale in T1, T2, T3; cbn [qx qy qz qw row0 row1 row2 row3 vx vy vz vw] in T1, T2, T3.
  injection T1 as E1 E2 E3 _. injection T2 as F1 F2 F3 _. injection T3 as G1 G2 G3 _.
  unfold qmat_times; cbn [qx qy qz qw row0 row1 row2 row3 vx vy vz vw].
  assert (U : 1 = x * x + y * y + z * z + w * w) by lra.
  repeat split; match goal with |- _ = s * (1 - _) => rewrite U | _ => idtac end; lra.
Qed.
Lemma normal_by : forall r, 0 < qx r * qx r + qy r * qy r + qz r * qz r + qw r * qw r ->
  exists c, 0 < c /\ qnormalize r = Q (c * qx r) (c * qy r) (c * qz r) (c * qw r).
Proof.
  intros r H. unfold qnormalize. pose proof (sqrt_lt_R0 _ H) as S. set (n := sqrt _) in *. exists (/ n). split; [apply Rinv_0_lt_compat; auto|].
  destruct (Req_EM_T n 0); [lra|]. f_equal; unfold Rdiv; ring.
Qed.
Lemma scaled_skewed : forall s q m, 0 < s -> unit_quat q -> qmat_times s q m -> skewed s q (from_matrix m).
Proof.
  intros s [x y z w] [[a0 a1 a2 a3] [b0 b1 b2 b3] [c0 c1 c2 c3] d] SP U H.
  unfold qmat_times in H; cbn [qx qy qz qw row0 row1 row2 row3 vx vy vz vw] in H.
  destruct H as (-> & -> & -> & -> & -> & -> & -> & -> & ->). unfold unit_quat in U; cbn [qx qy qz qw] in U.
  unfold from_matrix, raw_quat, mat_at, vec_at; cbn [row0 row1 row2 row3 vx vy vz vw].
  match goal with |- context [argmax4 ?a ?b ?c ?d] => pose proof (argmax4_spec a b c d) as S; cbn zeta in S; set (n := argmax4 a b c d) in * end.
  destruct S as (L & S1 & S2 & S3 & S4). clearbody n.
  assert (Z : forall k, s * (x * x) <= s * (k * k) -> s * (y * y) <= s * (k * k) -> s * (z * z) <= s * (k * k) -> s * (w * w) <= s * (k * k) -> / 4 <= k * k /\ leads k (Q x y z w)).
  { intros k K1 K2 K3 K4. apply Rmult_le_reg_l in K1, K2, K3, K4; auto. split; [lra|]. unfold leads; cbn [qx qy qz qw]. repeat split; apply sq_abs; auto. }
  assert (W0 : w * w = 1 - (x * x + y * y + z * z)) by lra.
  assert (SW : s * (w * w) = s - (s * (x * x) + s * (y * y) + s * (z * z))) by (rewrite W0; ring).
  assert (POS : forall k p, / 4 <= k * k -> 0 <= p -> 0 < (4 * s * k * k + (1 - s)) * (4 * s * k * k + (1 - s)) + p).
  { intros k p K Pp. assert (s * / 4 <= s * (k * k)) by (apply Rmult_le_compat_l; lra). assert (1 <= 4 * s * k * k + (1 - s)) by lra. nra. }
  assert (SQ : forall p, 0 <= p * p) by (intro; nra).
  destruct n as [|[|[|[|n]]]]; cbn [nth] in S1, S2, S3, S4.
  - destruct (Z x) as (K & LD); try lra. match goal with |- skewed _ _ (qnormalize ?r) => assert (E : r = Q (4 * s * x * x + (1 - s)) (4 * s * x * y) (4 * s * x * z) (4 * s * x * w)) by (f_equal; lra); rewrite E; clear E end.
    match goal with |- skewed _ _ (qnormalize ?r) => destruct (normal_by r) as (c & C & ->) end.
    { cbn [qx qy qz qw]. rewrite !Rplus_assoc. apply POS; auto. pose proof (SQ (4 * s * x * y)). pose proof (SQ (4 * s * x * z)). pose proof (SQ (4 * s * x * w)). lra. }
    exists c. split; [exact C|]. cbn zeta. left. split; [exact LD|]. cbn [qx qy qz qw]. reflexivity.
  - destruct (Z y) as (K & LD); try lra. match goal with |- skewed _ _ (qnormalize ?r) => assert (E : r = Q (4 * s * y * x) (4 * s * y * y + (1 - s)) (4 * s * y * z) (4 * s * y * w)) by (f_equal; lra); rewrite E; clear E end.
    match goal with |- skewed _ _ (qnormalize ?r) => destruct (normal_by r) as (c & C & ->) end.
    { cbn [qx qy qz qw]. pose proof (POS y 0 K ltac:(lra)). pose proof (SQ (4 * s * y * x)). pose proof (SQ (4 * s * y * z)). pose proof (SQ (4 * s * y * w)). lra. }
    exists c. split; [exact C|]. cbn zeta. right; left. split; [exact LD|]. cbn [qx qy qz qw]. reflexivity.
  - destruct (Z z) as (K & LD); try lra. match goal with |- skewed _ _ (qnormalize ?r) => assert (E : r = Q (4 * s * z * x) (4 * s * z * y) (4 * s * z * z + (1 - s)) (4 * s * z * w)) by (f_equal; lra); rewrite E; clear E end.
    match goal with |- skewed _ _ (qnormalize ?r) => destruct (normal_by r) as (c & C & ->) end.
    { cbn [qx qy qz qw]. pose proof (POS z 0 K ltac:(lra)). pose proof (SQ (4 * s * z * x)). pose proof (SQ (4 * s * z * y)). pose proof (SQ (4 * s * z * w)). lra. }
    exists c. split; [exact C|]. cbn zeta. right; right; left. split; [exact LD|]. cbn [qx qy qz qw]. reflexivity.
  - destruct (Z w) as (K & LD); try lra. match goal with |- skewed _ _ (qnormalize ?r) => assert (E : r = Q (4 * s * w * x) (4 * s * w * y) (4 * s * w * z) (4 * s * w * w + (1 - s))) by (f_equal; lra); rewrite E; clear E end.
    match goal with |- skewed _ _ (qnormalize ?r) => destruct (normal_by r) as (c & C & ->) end.
    { cbn [qx qy qz qw]. pose proof (POS w 0 K ltac:(lra)). pose proof (SQ (4 * s * w * x)). pose proof (SQ (4 * s * w * y)). pose proof (SQ (4 * s * w * z)). lra. }
    exists c. split; [exact C|]. cbn zeta. right; right; right. split; [exact LD|]. cbn [qx qy qz qw]. reflexivity.
  - exfalso. lia.
Qed.
Lemma unit_skewed : forall s q m, 0 < s -> unit_quat q -> qmat_times s q m -> unit_quat (from_matrix m).
Proof.
  intros s q m SP U H. destruct (scaled_skewed s q m SP U H) as (c & C & K). unfold from_matrix in *. revert K. unfold qnormalize. set (r := raw_quat m). set (n2 := qx r * qx r + qy r * qy r + qz r * qz r + qw r * qw r).
  assert (N0 : 0 <= n2) by (unfold n2; nra). destruct (Req_EM_T (sqrt n2) 0) as [E|E]; intro K.
  - exfalso. apply sqrt_eq_0 in E; auto. assert (Z : qx r = 0 /\ qy r = 0 /\ qz r = 0 /\ qw r = 0) by (unfold n2 in E; repeat split; nra). destruct Z as (Z1 & Z2 & Z3 & Z4). cbn zeta in K.
    assert (P : forall k, leads k q -> 0 < c * (4 * s * k * k + (1 - s))).
    { intros k (L1 & L2 & L3 & L4). unfold unit_quat in U. apply Rsqr_le_abs_1 in L1, L2, L3, L4. unfold Rsqr in *. assert (/ 4 <= k * k) by lra. assert (s * / 4 <= s * (k * k)) by (apply Rmult_le_compat_l; lra). apply Rmult_lt_0_compat; auto. lra. }
    destruct K as [(L & E1)|[(L & E1)|[(L & E1)|(L & E1)]]]; apply P in L; rewrite E1 in Z1, Z2, Z3, Z4; cbn [qx qy qz qw] in *; lra.
  - unfold unit_quat. cbn [qx qy qz qw]. pose proof (sqrt_sqrt n2 N0) as SS. set (g := sqrt n2) in *.
    replace (_ + _ + _ + _) with (n2 / (g * g)) by (unfold n2; field; auto). rewrite SS. apply Rinv_r. intro Z. apply E. unfold g. rewrite Z. apply sqrt_0.
Qed.
(** one component at a time: [k] leads, the others are [a], [b] and [d] *)
Lemma right_when : forall s c k a b d, 0 < s -> 0 < c -> k * k + a * a + b * b + d * d = 1 -> / 4 <= k * k ->
  let K := c * (4 * s * k * k + (1 - s)) in let f x := c * (4 * s * k * x) in
  K * K + f a * f a + f b * f b + f d * f d = 1 ->
  ((K = k /\ f a = a /\ f b = b /\ f d = d) \/ (K = - k /\ f a = - a /\ f b = - b /\ f d = - d)) <-> (s = 1 \/ (a = 0 /\ b = 0 /\ d = 0)).
Proof.
  intros s c k a b d SP C U K4 K f N. split.
  - intros H. destruct (Req_dec s 1) as [|NS]; [left; auto|right].
    assert (T : forall e, (e = 1 \/ e = -1) -> K = e * k -> forall x, f x = e * x -> x = 0).
    { intros e EE HK x HX. destruct (Req_dec x 0) as [|NX]; auto. exfalso. apply NS. unfold f in HX. assert (G : c * (4 * s * k) = e).
      { apply (Rmult_eq_reg_r x); auto. rewrite <- HX. ring. }
      unfold K in HK. replace (c * (4 * s * k * k + (1 - s))) with (c * (4 * s * k) * k + c * (1 - s)) in HK by ring. rewrite G in HK. assert (Z : c * (1 - s) = 0) by lra. apply Rmult_integral in Z. lra. }
    destruct H as [(HK & HA & HB & HD)|(HK & HA & HB & HD)].
    + repeat split; apply (T 1); auto; lra.
    + repeat split; apply (T (-1)); auto; lra.
  - intros [-> | (-> & -> & ->)].
    + assert (E : (c * (4 * k)) * (c * (4 * k)) = 1). { unfold K, f in N. transitivity ((c * (4 * k)) * (c * (4 * k)) * (k * k + a * a + b * b + d * d)); [rewrite U; ring|]. transitivity ((c * (4 * 1 * k * k + (1 - 1))) * (c * (4 * 1 * k * k + (1 - 1))) + c * (4 * 1 * k * a) * (c * (4 * 1 * k * a)) + c * (4 * 1 * k * b) * (c * (4 * 1 * k * b)) + c * (4 * 1 * k * d) * (c * (4 * 1 * k * d))); [ring|exact N]. }
      assert (E2 : c * (4 * k) = 1 \/ c * (4 * k) = -1). { assert (Z : (c * (4 * k) - 1) * (c * (4 * k) + 1) = 0) by (ring_simplify; ring_simplify in E; lra). apply Rmult_integral in Z. destruct Z; [left|right]; lra. }
      unfold K, f. destruct E2 as [E2|E2]; [left|right]; repeat split; match goal with |- c * (4 * 1 * k * ?x + _) = _ => replace (c * (4 * 1 * k * x + (1 - 1))) with (c * (4 * k) * x) by ring | |- c * (4 * 1 * k * ?x) = _ => replace (c * (4 * 1 * k * x)) with (c * (4 * k) * x) by ring end; rewrite E2; ring.
    + unfold f in *. rewrite !Rmult_0_r in *. assert (KP : 0 < K). { unfold K. assert (s * / 4 <= s * (k * k)) by (apply Rmult_le_compat_l; lra). apply Rmult_lt_0_compat; lra. }
      assert (K1 : K = 1) by nra. assert (k = 1 \/ k = -1). { assert (Z : (k - 1) * (k + 1) = 0) by lra. apply Rmult_integral in Z. destruct Z; [left|right]; lra. }
      rewrite K1. destruct H as [-> | ->]; [left|right]; repeat split; ring.
Qed.

Theorem scaled_right : forall o q s, 0 < s -> unit_quat q -> turns_and_stretches q s o ->
  skewed s q (get_quaternion o) /\ unit_quat (get_quaternion o) /\ (same_rotation (get_quaternion o) q <-> s = 1 \/ no_or_half_turn q).
Proof.
  intros o q s SP U T. pose proof (times_of o q s U T) as H. unfold get_quaternion, get_world_transform in *. pose proof (scaled_skewed s q _ SP U H) as K. pose proof (unit_skewed s q _ SP U H) as V.
  split; [exact K|]. split; [exact V|]. destruct K as (c & C & K). cbn zeta in K. set (p := from_matrix (o_world o)) in *. clearbody p. clear H T o.
  destruct q as [x y z w]. destruct p as [p1 p2 p3 p4]. unfold unit_quat, same_rotation, no_or_half_turn, leads in *. cbn [qx qy qz qw] in *.
  assert (Q4 : forall k, Rabs x <= Rabs k /\ Rabs y <= Rabs k /\ Rabs z <= Rabs k /\ Rabs w <= Rabs k -> / 4 <= k * k).
  { intros k (L1 & L2 & L3 & L4). apply Rsqr_le_abs_1 in L1, L2, L3, L4. unfold Rsqr in *. lra. }
  assert (EQ : forall a1 a2 a3 a4 b1 b2 b3 b4, Q a1 a2 a3 a4 = Q b1 b2 b3 b4 <-> (a1 = b1 /\ a2 = b2 /\ a3 = b3 /\ a4 = b4)).
  { intros. split; [intro E; injection E; auto|intros (-> & -> & -> & ->); reflexivity]. }
  assert (MAX : forall k, / 4 <= k * k -> k <> 0) by (intros k H ->; lra).
  rewrite !EQ. destruct K as [(L & E)|[(L & E)|[(L & E)|(L & E)]]]; apply Q4 in L; injection E as -> -> -> ->; pose proof (MAX _ L) as NZ.
  - pose proof (right_when s c x y z w SP C ltac:(lra) L) as RT. cbn zeta in RT. specialize (RT ltac:(lra)). intuition.
  - pose proof (right_when s c y x z w SP C ltac:(lra) L) as RT. cbn zeta in RT. specialize (RT ltac:(lra)). intuition.
  - pose proof (right_when s c z x y w SP C ltac:(lra) L) as RT. cbn zeta in RT. specialize (RT ltac:(lra)). intuition.
  - pose proof (right_when s c w x y z SP C ltac:(lra) L) as RT. cbn zeta in RT. specialize (RT ltac:(lra)). intuition.
Qed.
