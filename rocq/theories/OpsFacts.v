(** * OpsFacts: reflection, refraction and roots *)
From Coq Require Import Reals List Bool Lra Psatz.
Import ListNotations.
From Verif Require Import XR XRFacts Lin LinFacts Ops SpecGeom SpecOptics.
Open Scope R_scope.

(** ** reflect *)
Lemma vdot_sym : forall a b, vdot a b = vdot b a.
Proof. intros [a0 a1 a2 a3] [b0 b1 b2 b3]; unfold vdot; cbn [vx vy vz vw]; ring. Qed.
Lemma reflect_dot_normal : forall v n, unit n -> vdot (reflect v n) n = - vdot v n.
Proof.
  intros [a b c d] [x y z w] U. unfold unit, reflect, vsub, vadd, vopp, vscale, vdot in *; cbn [vx vy vz vw] in *.
  transitivity ((a*x+b*y+c*z+d*w) - 2*(a*x+b*y+c*z+d*w)*(x*x+y*y+z*z+w*w)); [ring|rewrite U; ring].
Qed.
Lemma reflect_tangential : forall v n, unit n -> tangential (reflect v n) n = tangential v n.
Proof.
  intros v n U. unfold tangential. rewrite reflect_dot_normal by auto.
  destruct v as [a b c d], n as [x y z w]. unfold reflect, vsub, vadd, vopp, vscale, vdot; cbn [vx vy vz vw].
  f_equal; ring.
Qed.
Lemma dot_split : forall v n, unit n -> vdot v v = vdot (tangential v n) (tangential v n) + vdot v n * vdot v n.
Proof.
  intros [a b c d] [x y z w] U. unfold unit, tangential, vsub, vadd, vopp, vscale, vdot in *; cbn [vx vy vz vw] in *.
  set (k := a*x+b*y+c*z+d*w).
  transitivity (a*a+b*b+c*c+d*d - 2*k*k + k*k*(x*x+y*y+z*z+w*w) + k*k); [rewrite U; ring|unfold k; ring].
Qed.
Lemma reflect_length : forall v n, unit n -> vdot (reflect v n) (reflect v n) = vdot v v.
Proof.
  intros v n U. rewrite (dot_split (reflect v n) n), (dot_split v n), reflect_tangential, reflect_dot_normal by auto. ring.
Qed.
Lemma reflect_involution : forall v n, unit n -> reflect (reflect v n) n = v.
Proof.
  intros v n U. unfold reflect at 1. rewrite reflect_dot_normal by auto.
  destruct v as [a b c d], n as [x y z w]. unfold reflect, vsub, vadd, vopp, vscale, vdot; cbn [vx vy vz vw]. f_equal; ring.
Qed.

Lemma reflect_one_normal_map : forall vs n, reflect_one_normal vs n = map (fun v => reflect v n) vs.
Proof.
  intros vs n. unfold reflect_one_normal. induction vs as [|v vs IH]; auto. cbn [length repeat map combine]. f_equal. exact IH.
Qed.
Lemma reflect_matrix_map : forall vs ns, reflect_matrix vs ns = map (fun q => reflect (fst q) (snd q)) (combine vs ns).
Proof.
  intros vs. unfold reflect_matrix. induction vs as [|v vs IH]; intros [|n ns]; auto. cbn [map combine fst snd]. f_equal. apply IH.
Qed.

(** ** refract *)
Lemma vnormalize_hat : forall v, vdot v v <> 0 -> vnormalize v = Some (hat v) /\ unit (hat v).
Proof.
  intros v H. unfold vnormalize, hat, unit. destruct (Req_EM_T (vdot v v) 0); [contradiction|]. split; auto.
  rewrite vdot_scale_l, vdot_scale_r. unfold vnorm.
  assert (0 < vdot v v) by (assert (0 <= vdot v v) by (destruct v as [a0 a1 a2 a3]; unfold vdot; cbn [vx vy vz vw]; nra); lra).
  pose proof (sqrt_lt_R0 _ H0) as P. pose proof (sqrt_sqrt (vdot v v) (Rlt_le _ _ H0)) as Q.
  replace (/ sqrt (vdot v v) * (/ sqrt (vdot v v) * vdot v v)) with (vdot v v * / (sqrt (vdot v v) * sqrt (vdot v v))) by (field; lra).
  rewrite Q. field; lra.
Qed.
Lemma hat_unit : forall v, unit v -> hat v = v.
Proof.
  intros v U. unfold hat, vnorm. rewrite U, sqrt_1. destruct v as [a0 a1 a2 a3]; unfold vscale; cbn [vx vy vz vw]. f_equal; field.
Qed.
Lemma hat_dot : forall v n, vdot (hat v) n = / vnorm v * vdot v n.
Proof. intros. unfold hat. apply vdot_scale_l. Qed.
Lemma vnorm_pos : forall v, vdot v v <> 0 -> 0 < vnorm v.
Proof.
  intros v H. unfold vnorm. apply sqrt_lt_R0.
  assert (0 <= vdot v v) by (destruct v as [a0 a1 a2 a3]; unfold vdot; cbn [vx vy vz vw]; nra). lra.
Qed.
Lemma hat_side : forall v n, vdot v v <> 0 -> rltb 0 (vdot (hat v) n) = rltb 0 (vdot v n).
Proof.
  intros v n H. rewrite hat_dot. pose proof (vnorm_pos v H) as P. apply Rinv_0_lt_compat in P.
  unfold rltb. destruct (Rlt_dec 0 (/ vnorm v * vdot v n)), (Rlt_dec 0 (vdot v n)); auto; exfalso; nra.
Qed.

(** the sine condition and the code's radicand *)
Lemma tangential_norm2 : forall u n, unit u -> unit n ->
  vnorm (tangential u n) * vnorm (tangential u n) = 1 - vdot u n * vdot u n.
Proof.
  intros u n U N. unfold vnorm. rewrite sqrt_sqrt.
  - pose proof (dot_split u n N). unfold unit in U. lra.
  - destruct (tangential u n) as [t0 t1 t2 t3]; unfold vdot; cbn [vx vy vz vw]; nra.
Qed.
Lemma vnorm_nonneg : forall v, 0 <= vnorm v.
Proof. intro v. apply sqrt_pos. Qed.

Lemma radicand_pos : forall n1 m u n, 0 < n1 -> 0 < m -> unit u -> unit n ->
  (0 < 1 - (n1 / m * (n1 / m)) * (1 - vdot u n * vdot u n) <-> n1 * vnorm (tangential u n) < m).
Proof.
  intros n1 m u n H1 Hm U N. rewrite <- tangential_norm2 by auto.
  set (s := vnorm (tangential u n)). pose proof (vnorm_nonneg (tangential u n)) as S. fold s in S.
  assert (E : n1 / m * (n1 / m) * (s * s) = (n1 * s) * (n1 * s) / (m * m)) by (field; lra).
  rewrite E. assert (P : 0 < m * m) by nra.
  assert (Q : (n1 * s) * (n1 * s) / (m * m) * (m * m) = (n1 * s) * (n1 * s)) by (field; lra).
  split; intro H.
  - assert ((n1 * s) * (n1 * s) < m * m).
    { rewrite <- Q. apply Rmult_lt_reg_r with (/ (m * m)); [apply Rinv_0_lt_compat; auto|].
      rewrite Rmult_assoc, Rinv_r, Rmult_1_r by lra. lra. }
    assert (0 <= n1 * s) by nra. nra.
  - assert ((n1 * s) * (n1 * s) < m * m) by (assert (0 <= n1 * s) by nra; nra).
    assert ((n1 * s) * (n1 * s) / (m * m) < 1); [|lra].
    apply Rmult_lt_reg_r with (m * m); auto. rewrite Q. lra.
Qed.

Section Refract.
  Variables (v n : v4) (n1 n2 ng : R).
  Hypotheses (Hv : vdot v v <> 0) (Hn : unit n) (H1 : 0 < n1) (H2 : 0 < n2) (Hg : 0 < ng).
  Let u := hat v.
  Let m := next_index v n n2 ng.
  Let e := rltb 0 (vdot v n).
  Let nn := if e then vopp n else n.
  Let c1 := Rabs (vdot u n).
  Let r := n1 / m.
  Let rad := 1 - (r * r) * (1 - vdot u n * vdot u n).

  Lemma u_unit : unit u. Proof. apply vnormalize_hat; auto. Qed.
  Lemma m_pos : 0 < m.
  Proof. unfold m, next_index. destruct (Rlt_dec 0 (vdot v n)); auto. Qed.
  Lemma nn_unit : unit nn.
  Proof.
    unfold nn. destruct e; auto. unfold unit in *. destruct n as [a0 a1 a2 a3]; unfold vdot, vopp, vscale in *; cbn [vx vy vz vw] in *. lra.
  Qed.
  Lemma dot_nn : vdot u nn = - c1.
  Proof.
    unfold nn, c1, e. destruct (rltb 0 (vdot v n)) eqn:E.
    - assert (P : rltb 0 (vdot u n) = true) by (unfold u; rewrite hat_side; auto). apply rltb_true in P.
      rewrite Rabs_right by lra. destruct u as [a0 a1 a2 a3], n as [b0 b1 b2 b3]; unfold vdot, vopp, vscale; cbn [vx vy vz vw]. ring.
    - assert (P : rltb 0 (vdot u n) = false) by (unfold u; rewrite hat_side; auto). apply rltb_false in P.
      rewrite Rabs_left1 by lra. lra.
  Qed.
  Lemma tan_nn : forall x, tangential x nn = tangential x n.
  Proof.
    intro x. unfold nn. destruct e; auto. destruct x as [a0 a1 a2 a3], n as [b0 b1 b2 b3]; unfold tangential, vdot, vsub, vadd, vopp, vscale; cbn [vx vy vz vw].
    f_equal; ring.
  Qed.

  Lemma refract_unfold : refract v n n1 n2 ng =
    let refr := if rltb 0 rad then vadd (vscale r u) (vscale (r * c1 - sqrt (Rmax 0 rad)) nn)
                else vadd u (vscale (2 * c1) nn) in
    match vnormalize refr with None => None | Some d => Some (d, if rltb 0 rad then m else n1) end.
  Proof.
    unfold refract. rewrite (proj1 (vnormalize_hat v Hv)). fold u.
    assert (Ee : rltb 0 (vdot u n) = e) by (unfold u; rewrite hat_side; auto). cbv zeta. rewrite Ee.
    assert (Em : (if e then ng else n2) = m).
    { unfold e, m, next_index, rltb. destruct (Rlt_dec 0 (vdot v n)); auto. }
    rewrite Em. fold nn.
    assert (Ec : (if e then vdot u n else vdot u (vopp n)) = c1).
    { unfold c1. destruct e eqn:Q.
      - apply rltb_true in Ee. rewrite Rabs_right; lra.
      - apply rltb_false in Ee. rewrite Rabs_left1 by lra. destruct u as [a0 a1 a2 a3], n as [b0 b1 b2 b3]; unfold vdot, vopp, vscale; cbn [vx vy vz vw]; ring. }
    rewrite Ec. destruct (Req_EM_T m 0) as [Z|_]; [pose proof m_pos; lra|].
    assert (Er : 1 - n1 / m * (n1 / m) * (1 - c1 * c1) = rad).
    { unfold rad, r, c1. replace (Rabs (vdot u n) * Rabs (vdot u n)) with (vdot u n * vdot u n); auto.
      rewrite <- Rabs_mult, Rabs_right; auto. apply Rle_ge, Rle_0_sqr. }
    rewrite Er. reflexivity.
  Qed.

  Lemma refr_dot : forall k, vdot (vadd (vscale r u) (vscale (r * c1 - k) nn)) nn = - k.
  Proof.
    intro k. pose proof dot_nn as D. pose proof nn_unit as U. unfold unit in U.
    generalize dependent nn. intros q D U. destruct u as [a b c d], q as [x y z w]. unfold vadd, vscale, vdot in *; cbn [vx vy vz vw] in *.
    transitivity (r*(a*x+b*y+c*z+d*w) + (r*c1-k)*(x*x+y*y+z*z+w*w)); [ring|rewrite D, U; ring].
  Qed.
  Lemma refr_tan : forall k, tangential (vadd (vscale r u) (vscale (r * c1 - k) nn)) nn = vscale r (tangential u nn).
  Proof.
    intro k. unfold tangential at 1. rewrite refr_dot. unfold tangential. rewrite dot_nn.
    generalize dependent nn. intros q. destruct u as [a b c d], q as [x y z w]. unfold vsub, vadd, vopp, vscale; cbn [vx vy vz vw]. f_equal; ring.
  Qed.

  Lemma tan_dot2 : vdot (tangential u nn) (tangential u nn) = 1 - vdot u n * vdot u n.
  Proof.
    pose proof (dot_split u nn nn_unit) as D. rewrite dot_nn in D. pose proof u_unit as U. unfold unit in U.
    assert (c1 * c1 = vdot u n * vdot u n) by (unfold c1; rewrite <- Rabs_mult, Rabs_right; auto; apply Rle_ge, Rle_0_sqr). lra.
  Qed.

  Lemma refract_transmits : n1 * vnorm (tangential u n) < m ->
    exists d, refract v n n1 n2 ng = Some (d, m) /\ unit d /\
      vscale n1 (tangential u n) = vscale m (tangential d n) /\
      (if Rlt_dec 0 (vdot v n) then 0 < vdot d n else vdot d n < 0) /\
      vdot d n * vdot d n = 1 - (n1 / m) * (n1 / m) * (1 - vdot u n * vdot u n).
  Proof.
    intro S. pose proof m_pos as M. pose proof u_unit as U.
    assert (P : 0 < rad) by (apply radicand_pos; auto).
    rewrite refract_unfold. cbv zeta. rewrite (proj2 (rltb_true 0 rad) P).
    rewrite (Rmax_right 0 rad) by lra. pose proof (sqrt_lt_R0 rad P) as Sp. pose proof (sqrt_sqrt rad (Rlt_le _ _ P)) as Sq.
    set (k := sqrt rad) in *. set (d := vadd (vscale r u) (vscale (r * c1 - k) nn)).
    assert (Ud : unit d).
    { unfold unit. rewrite (dot_split d nn nn_unit). unfold d. rewrite refr_tan, refr_dot.
      rewrite vdot_scale_l, vdot_scale_r, tan_dot2. unfold rad in Sq. lra. }
    exists d. destruct (vnormalize_hat d) as [E _]; [unfold unit in Ud; lra|]. rewrite E, hat_unit by auto.
    split; auto. split; auto. split; [|split].
    - rewrite <- (tan_nn u), <- (tan_nn d). unfold d. rewrite refr_tan.
      destruct (tangential u nn) as [t0 t1 t2 t3]; unfold vscale, r; cbn [vx vy vz vw]. f_equal; field; lra.
    - assert (D : vdot d nn = - k) by (apply refr_dot).
      unfold nn, e, rltb in D. destruct (Rlt_dec 0 (vdot v n)); [|lra].
      assert (vdot d (vopp n) = - vdot d n) by (destruct d as [a0 a1 a2 a3], n as [b0 b1 b2 b3]; unfold vdot, vopp, vscale; cbn [vx vy vz vw]; ring). lra.
    - assert (D : vdot d nn = - k) by (apply refr_dot).
      assert (vdot d n * vdot d n = vdot d nn * vdot d nn) as ->.
      { unfold nn. destruct e; auto. destruct d as [a0 a1 a2 a3], n as [b0 b1 b2 b3]; unfold vdot, vopp, vscale; cbn [vx vy vz vw]; ring. }
      rewrite D. unfold rad, r in Sq. lra.
  Qed.

  Lemma refract_reflects : m <= n1 * vnorm (tangential u n) ->
    exists d, refract v n n1 n2 ng = Some (d, n1) /\ unit d /\ mirrored u d n /\ d = reflect u n.
  Proof.
    intro S. pose proof m_pos as M. pose proof u_unit as U.
    assert (P : ~ 0 < rad) by (intro P; apply radicand_pos in P; auto; fold u in P; lra).
    rewrite refract_unfold. cbv zeta. rewrite (proj2 (rltb_false 0 rad)) by lra.
    assert (E : vadd u (vscale (2 * c1) nn) = reflect u n).
    { replace c1 with (- vdot u nn) by (rewrite dot_nn; ring). unfold nn. destruct e; destruct u as [a0 a1 a2 a3], n as [b0 b1 b2 b3]; unfold reflect, vsub, vadd, vopp, vscale, vdot; cbn [vx vy vz vw]; f_equal; ring. }
    rewrite E. assert (Ud : unit (reflect u n)) by (unfold unit; rewrite reflect_length; auto).
    exists (reflect u n). destruct (vnormalize_hat (reflect u n)) as [E' _]; [unfold unit in Ud; lra|]. rewrite E', hat_unit by auto.
    split; auto. split; auto. split; auto. split; [apply reflect_dot_normal; auto|apply reflect_tangential; auto].
  Qed.
End Refract.

Lemma vopp_dot_l : forall a b, vdot (vopp a) b = - vdot a b.
Proof. intros [a0 a1 a2 a3] [b0 b1 b2 b3]; unfold vdot, vopp, vscale; cbn [vx vy vz vw]; ring. Qed.
Lemma tangential_opp : forall a n, tangential (vopp a) n = vopp (tangential a n).
Proof. intros [a0 a1 a2 a3] [b0 b1 b2 b3]; unfold tangential, vdot, vsub, vadd, vopp, vscale; cbn [vx vy vz vw]; f_equal; ring. Qed.
Lemma vnorm_opp : forall a, vnorm (vopp a) = vnorm a.
Proof. intros [a0 a1 a2 a3]; unfold vnorm; f_equal; unfold vdot, vopp, vscale; cbn [vx vy vz vw]; ring. Qed.
Lemma vnorm_scale : forall k a, 0 <= k -> vnorm (vscale k a) = k * vnorm a.
Proof.
  intros k a H. unfold vnorm. rewrite vdot_scale_l, vdot_scale_r, <- Rmult_assoc, sqrt_mult_alt by nra.
  rewrite sqrt_square; auto.
Qed.
Lemma unit_opp : forall a, unit a -> unit (vopp a).
Proof. intros a; unfold unit; destruct a as [a0 a1 a2 a3]; unfold vdot, vopp, vscale; cbn [vx vy vz vw]; lra. Qed.
Lemma recompose : forall a b n, unit n -> tangential a n = tangential b n -> vdot a n = vdot b n -> a = b.
Proof.
  intros a b n U T D. unfold tangential in T. rewrite D in T.
  destruct a as [a0 a1 a2 a3], b as [b0 b1 b2 b3]. unfold vsub, vadd, vopp, vscale in T; cbn [vx vy vz vw] in T.
  injection T as T0 T1 T2 T3. f_equal; lra.
Qed.

(** reversibility: a unit ray in the medium of index [n1] on its own side *)
Lemma refract_back : forall v n n2 ng, unit v -> unit n -> 0 < n2 -> 0 < ng -> vdot v n <> 0 ->
  let n1 := if Rlt_dec 0 (vdot v n) then n2 else ng in
  n1 * vnorm (tangential v n) < next_index v n n2 ng ->
  exists d m, refract v n n1 n2 ng = Some (d, m) /\ refract (vopp d) n m n2 ng = Some (vopp v, n1).
Proof.
  intros v n n2 ng U N H2 Hg Nz n1 S.
  assert (Hv : vdot v v <> 0) by (unfold unit in U; lra).
  assert (H1 : 0 < n1) by (unfold n1; destruct (Rlt_dec 0 (vdot v n)); auto).
  destruct (refract_transmits v n n1 n2 ng) as (d & E & Ud & T & Sd & Sq); auto; [rewrite hat_unit by auto; auto|].
  rewrite hat_unit in T, Sq by auto. set (m := next_index v n n2 ng) in *.
  exists d, m. split; auto.
  assert (M : 0 < m) by (apply m_pos; auto).
  assert (Em : next_index (vopp d) n n2 ng = n1).
  { unfold next_index, n1. rewrite vopp_dot_l. destruct (Rlt_dec 0 (vdot v n)), (Rlt_dec 0 (- vdot d n)); auto; exfalso; lra. }
  assert (Ud' : unit (vopp d)) by (apply unit_opp; auto).
  (* the sine seen from behind *)
  assert (Tn : n1 * vnorm (tangential v n) = m * vnorm (tangential d n)).
  { rewrite <- !vnorm_scale by lra. rewrite T. auto. }
  assert (Lt : m * vnorm (tangential (vopp d) n) < next_index (vopp d) n n2 ng).
  { rewrite Em, tangential_opp, vnorm_opp, <- Tn.
    assert (vnorm (tangential v n) < 1); [|nra].
    pose proof (tangential_norm2 v n U N) as Q. pose proof (vnorm_nonneg (tangential v n)).
    assert (0 < vdot v n * vdot v n) by nra. nra. }
  destruct (refract_transmits (vopp d) n m n2 ng) as (d' & E' & Ud2 & T' & Sd' & Sq'); auto; [unfold unit in Ud'; lra|rewrite hat_unit by auto; auto|].
  rewrite Em in *. rewrite hat_unit in T', Sq' by auto. rewrite E'. f_equal. f_equal.
  apply (recompose d' (vopp v) n N).
  - rewrite tangential_opp in *. apply (f_equal (vscale (/ n1))) in T'.
    assert (X : vscale (/ n1) (vscale n1 (tangential d' n)) = tangential d' n).
    { destruct (tangential d' n) as [t0 t1 t2 t3]; unfold vscale; cbn [vx vy vz vw]; f_equal; field; lra. }
    rewrite X in T'. rewrite <- T'.
    assert (Y : vscale m (vopp (tangential d n)) = vopp (vscale m (tangential d n))).
    { destruct (tangential d n) as [t0 t1 t2 t3]; unfold vopp, vscale; cbn [vx vy vz vw]; apply v4_eq; cbn [vx vy vz vw]; ring. }
    rewrite Y, <- T. destruct (tangential v n) as [t0 t1 t2 t3]; unfold vopp, vscale; cbn [vx vy vz vw]; apply v4_eq; cbn [vx vy vz vw]; field; lra.
  - rewrite vopp_dot_l. assert (Q : vdot d' n * vdot d' n = vdot v n * vdot v n).
    { rewrite Sq', !vopp_dot_l. replace (- vdot d n * - vdot d n) with (vdot d n * vdot d n) by ring. rewrite Sq. field. lra. }
    rewrite vopp_dot_l in Sd'. destruct (Rlt_dec 0 (vdot v n)) as [g|g], (Rlt_dec 0 (- vdot d n)) as [g'|g']; try lra; nra.
Qed.

(** ** roots *)
Lemma quad_roots : forall a b c x, a <> 0 -> 0 <= b * b - 4 * a * c ->
  let s := sqrt (b * b - 4 * a * c) in
  root_of a b c x <-> x = (- b + s) / (2 * a) \/ x = (- b - s) / (2 * a).
Proof.
  intros a b c x Ha Hd s. assert (Hs : s * s = b * b - 4 * a * c) by (apply sqrt_sqrt; auto).
  unfold root_of.
  assert (F : a * (a * (x * x) + b * x + c) * 4 = (2 * a * x + b - s) * (2 * a * x + b + s)) by nra.
  split.
  - intro H. rewrite H in F. assert ((2 * a * x + b - s) * (2 * a * x + b + s) = 0) by lra.
    apply Rmult_integral in H0. destruct H0; [left|right].
    + replace x with (2 * a * x / (2 * a)) by (field; auto). f_equal; lra.
    + replace x with (2 * a * x / (2 * a)) by (field; auto). f_equal; lra.
  - clear F. intros [-> | ->].
    + transitivity ((s * s - (b * b - 4 * a * c)) / (4 * a)); [field; auto|rewrite Hs; field; auto].
    + transitivity ((s * s - (b * b - 4 * a * c)) / (4 * a)); [field; auto|rewrite Hs; field; auto].
Qed.
Lemma quad_none : forall a b c x, b * b - 4 * a * c < 0 -> ~ root_of a b c x.
Proof. intros a b c x H E. unfold root_of in E. pose proof (Rle_0_sqr (2 * a * x + b)) as P. unfold Rsqr in P.
  replace ((2 * a * x + b) * (2 * a * x + b)) with (4 * a * (a * (x * x) + b * x + c) + (b * b - 4 * a * c)) in P by ring.
  rewrite E in P. lra.
Qed.

(** what binomial_root promises where it is exact *)
Lemma binomial_quadratic : forall a b c, atol < Rabs a ->
  let '(p0, p1) := binomial_root a b c in
  (exists x0 x1, p0 = Fin x0 /\ p1 = Fin x1 /\ forall x, root_of a b c x <-> x = x0 \/ x = x1) \/
  (p0 = PInf /\ p1 = PInf /\ forall x, ~ root_of a b c x).
Proof.
  intros a b c Ha. assert (Ha0 : a <> 0).
  { intro; subst. rewrite Rabs_R0 in Ha. unfold atol in Ha. lra. }
  unfold binomial_root. rewrite (proj2 (isclose0_false _) Ha). unfold b2r. rewrite Rplus_0_r. cbn [andb].
  destruct (rleb 0 (b * b - 4 * a * c)) eqn:D.
  - apply rleb_true in D. rewrite Rmax_right by auto. rewrite !xdiv_fin by lra. left.
    do 2 eexists. split; [reflexivity|]. split; [reflexivity|]. intro x. apply quad_roots; auto.
  - apply rleb_false in D. right. split; auto. split; auto. intro x. apply quad_none; auto.
Qed.
Lemma binomial_linear : forall b c, atol < Rabs b ->
  exists x0, binomial_root 0 b c = (Fin x0, Fin x0) /\ forall x, root_of 0 b c x <-> x = x0.
Proof.
  intros b c Hb. assert (Hb0 : b <> 0).
  { intro; subst. rewrite Rabs_R0 in Hb. unfold atol in Hb. lra. }
  unfold binomial_root. rewrite isclose0_0, (proj2 (isclose0_false _) Hb). cbn [andb].
  assert (reqb b 0 = false) as -> by (unfold reqb; destruct (Req_EM_T b 0); auto; contradiction).
  change (b2r false) with 0. rewrite !Rplus_0_r, (xdiv_fin (- c) b) by auto.
  destruct (rleb 0 (b * b - 4 * 0 * c)); (exists (- c / b); split; [reflexivity|]; intro x; unfold root_of; split; intro H;
    [replace x with (b * x / b) by (field; auto); f_equal; lra | subst; field; auto]).
Qed.
Lemma binomial_constant : forall c, binomial_root 0 0 c = (if rleb c 0 then MInf else PInf, PInf).
Proof.
  intro c. unfold binomial_root. rewrite !isclose0_0. cbn [andb].
  destruct (rleb 0 (0 * 0 - 4 * 0 * c)); destruct (rleb c 0); reflexivity.
Qed.

(** smallest_positive_root where it is right *)
Lemma div_order : forall a x y, 0 < a -> x <= y -> x / (2 * a) <= y / (2 * a).
Proof. intros. unfold Rdiv. apply Rmult_le_compat_r; auto. left. apply Rinv_0_lt_compat. lra. Qed.
Lemma div_order_neg : forall a x y, a < 0 -> x <= y -> y / (2 * a) <= x / (2 * a).
Proof.
  intros. unfold Rdiv. assert (/ (2 * a) < 0) by (apply Rinv_lt_0_compat; lra). nra.
Qed.

Lemma spr_correct : forall a b c, atol < Rabs a ->
  (a < 0 -> ~ exists x y, root_of a b c x /\ root_of a b c y /\ x < 0 <= y) ->
  (exists x, smallest_positive_root a b c = Fin x /\ root_of a b c x /\ 0 <= x /\
     forall y, root_of a b c y -> 0 <= y -> x <= y) \/
  (smallest_positive_root a b c = PInf /\ forall y, root_of a b c y -> y < 0).
Proof.
  intros a b c Ha Op. assert (Ha0 : a <> 0).
  { intro; subst. rewrite Rabs_R0 in Ha. unfold atol in Ha. lra. }
  unfold smallest_positive_root. rewrite (proj2 (isclose0_false _) Ha). unfold b2r. rewrite Rplus_0_r.
  destruct (rleb 0 (b * b - 4 * a * c)) eqn:D.
  2:{ apply rleb_false in D. cbn [andb]. right. split; auto. intros y Hy. exfalso. eapply quad_none; eauto. }
  apply rleb_true in D. cbn [andb]. rewrite Rmax_right by auto. rewrite !xdiv_fin by lra.
  pose proof (fun x => quad_roots a b c x Ha0 D) as Q. cbv zeta in Q.
  set (s := sqrt (b * b - 4 * a * c)) in *. assert (0 <= s) by apply sqrt_pos.
  set (p0 := (- b + s) / (2 * a)) in *. set (p1 := (- b - s) / (2 * a)) in *.
  assert (O : (0 < a /\ p1 <= p0) \/ (a < 0 /\ p0 <= p1)).
  { destruct (Rlt_or_le 0 a); [left|right]; split; try lra; [apply div_order|apply div_order_neg]; lra. }
  cbn [xleb]. rewrite xmin_fin.
  destruct (rleb 0 p1) eqn:E1.
  - apply rleb_true in E1. destruct O as [[Pa O]|[Pa O]].
    + rewrite Rmin_right by auto. cbn [xleb]. rewrite (proj2 (rleb_true 0 p1)) by auto. left. exists p1. split; auto.
      split; [apply Q; auto|]. split; auto. intros y Hy _. apply Q in Hy. destruct Hy; subst; lra.
    + rewrite Rmin_left by auto. cbn [xleb].
      assert (0 <= p0).
      { destruct (Rle_or_lt 0 p0); auto. exfalso. apply (Op Pa). exists p0, p1. split; [apply Q; auto|]. split; [apply Q; auto|]. lra. }
      rewrite (proj2 (rleb_true 0 p0)) by auto. left. exists p0. split; auto. split; [apply Q; auto|]. split; auto.
      intros y Hy _. apply Q in Hy. destruct Hy; subst; lra.
  - apply rleb_false in E1. cbn [xleb]. destruct (rleb 0 p0) eqn:E0.
    + apply rleb_true in E0. left. exists p0. split; auto. split; [apply Q; auto|]. split; auto.
      intros y Hy Hp. apply Q in Hy. destruct Hy; subst; lra.
    + apply rleb_false in E0. right. split; auto. intros y Hy. apply Q in Hy. destruct Hy; subst; lra.
Qed.

Lemma spr_refuted : smallest_positive_root (-1) 0 1 = PInf /\ root_of (-1) 0 1 1.
Proof.
  split; [|unfold root_of; ring]. unfold smallest_positive_root.
  assert (isclose (-1) 0 = false) as -> by (apply isclose0_false; unfold atol; rewrite Rabs_left; lra).
  unfold b2r. replace (0 * 0 - 4 * -1 * 1) with 4 by ring. rewrite Rmax_right by lra.
  assert (S : sqrt 4 = 2) by (replace 4 with (2 * 2) by ring; apply sqrt_square; lra). rewrite S.
  rewrite !xdiv_fin by lra. cbn [xleb].
  rewrite (proj2 (rleb_true 0 ((- 0 - 2) / (2 * -1 + 0)))) by lra. rewrite xmin_fin, Rmin_left by lra. cbn [xleb].
  rewrite (proj2 (rleb_false 0 ((- 0 + 2) / (2 * -1 + 0)))) by lra. rewrite andb_false_r. auto.
Qed.

Lemma binomial_refuted : binomial_root (/ 1000000000) 1 (-1) = (Fin 1, Fin 1) /\ ~ root_of (/ 1000000000) 1 (-1) 1.
Proof.
  split; [|unfold root_of; lra]. unfold binomial_root.
  assert (isclose (/ 1000000000) 0 = true) as ->.
  { unfold isclose, atol, rtol. apply rleb_true. rewrite Rabs_R0, Rabs_right; lra. }
  assert (isclose 1 0 = false) as -> by (apply isclose0_false; unfold atol; rewrite Rabs_right; lra). cbn [andb].
  assert (reqb 1 0 = false) as -> by (unfold reqb; destruct (Req_EM_T 1 0); auto; lra).
  change (b2r false) with 0. rewrite (xdiv_fin (- -1) (1 + 0)) by lra. replace (- -1 / (1 + 0)) with 1 by lra. destruct (rleb 0 _); auto.
Qed.

(** ** the forms used by the property theorems *)
Lemma refract_snell : forall v n n1 n2 n_global,
  vdot v v <> 0 -> unit n -> 0 < n1 -> 0 < n2 -> 0 < n_global ->
  n1 * vnorm (tangential (hat v) n) < next_index v n n2 n_global ->
  exists d, refract v n n1 n2 n_global = Some (d, next_index v n n2 n_global) /\
    unit d /\
    vscale n1 (tangential (hat v) n) = vscale (next_index v n n2 n_global) (tangential d n) /\
    (if Rlt_dec 0 (vdot v n) then 0 < vdot d n else vdot d n < 0).
Proof.
  intros v n n1 n2 ng Hv N H1 H2 H3 S. destruct (refract_transmits v n n1 n2 ng) as (d & A & B & C & D & _); auto.
  exists d; auto.
Qed.
Lemma refract_tir : forall v n n1 n2 n_global,
  vdot v v <> 0 -> unit n -> 0 < n1 -> 0 < n2 -> 0 < n_global ->
  next_index v n n2 n_global <= n1 * vnorm (tangential (hat v) n) ->
  exists d, refract v n n1 n2 n_global = Some (d, n1) /\ unit d /\ mirrored (hat v) d n.
Proof.
  intros v n n1 n2 ng Hv N H1 H2 H3 S. destruct (refract_reflects v n n1 n2 ng) as (d & A & B & C & _); auto.
  exists d; auto.
Qed.
Lemma refract_only_tir : forall v n n1 n2 n_global d m,
  vdot v v <> 0 -> unit n -> 0 < n1 -> 0 < n2 -> 0 < n_global ->
  refract v n n1 n2 n_global = Some (d, m) -> vdot v n <> 0 -> vdot d n * vdot v n <= 0 ->
  next_index v n n2 n_global <= n1 * vnorm (tangential (hat v) n).
Proof.
  intros v n n1 n2 ng d m Hv N H1 H2 H3 E Nz S. apply Rnot_lt_le. intro L.
  destruct (refract_transmits v n n1 n2 ng) as (d' & A & B & C & D & _); auto.
  rewrite E in A. injection A as A _. subst d'. destruct (Rlt_dec 0 (vdot v n)); nra.
Qed.
