(** * ImageFacts2: the images in several flat mirrors, in special arrangements *)
From Coq Require Import Reals Lra Lia List Bool ZArith Psatz.
Import ListNotations.
From Verif Require Import XR XRFacts Arr Lin LinFacts Ops OpsFacts SpecOptics Prim Csg Surf SpecGeom SpecTree CsgProps World SpecWorld Tracer SpecTrace
  TraceFacts3 TraceFacts5 TraceFacts7 TraceProps MirrorTrace SpecImages ImageFacts.
Open Scope R_scope.

Lemma Forall2_length : forall (A B : Type) (P : A -> B -> Prop) l l', Forall2 P l l' -> length l = length l'.
Proof. intros A B P l l' H. induction H; cbn; auto. Qed.
Lemma images_traced : forall asort, argsort_ok asort -> forall gen h t comps fuel t', proper gen h t comps -> trace asort h gen fuel t = TOk t' ->
  forall i ps before ws w after, rows_with_id i (f_rows (get_results t')) = before ++ ws ++ w :: after ->
  Forall facet_ok ps -> Forall2 (off_mirror (flat_map surface_ids comps)) ps ws ->
  let first := hd w ws in
  row_idx w = row_idx first /\ row_tilt w = fold_left turned_by ps (row_tilt first) /\
  here (row_end w) = vadd (fold_left image_of ps (here (row_start first)))
    (vscale (walk (here (row_start first)) (map (fun u => here (row_end u)) (ws ++ [w]))) (row_tilt w)).
Proof.
  intros asort AS gen h t comps fuel t' PR TR i ps before ws w after R F OM first.
  set (w0 := first). set (rest := tl (ws ++ [w])).
  assert (E : ws ++ [w] = w0 :: rest) by (unfold w0, first, rest; destruct ws; auto).
  assert (R' : rows_with_id i (f_rows (get_results t')) = before ++ w0 :: rest ++ after).
  { rewrite R. replace (w0 :: rest ++ after) with ((w0 :: rest) ++ after) by reflexivity. rewrite <- E, <- app_assoc. reflexivity. }
  assert (LW : w = last rest w0).
  { assert (X : last (ws ++ [w]) w0 = w) by apply last_last. rewrite E in X. rewrite <- X. destruct rest; reflexivity. }
  assert (LN : length ps = length rest).
  { apply Forall2_length in OM. assert (X : length (ws ++ [w]) = length (w0 :: rest)) by (rewrite E; auto). rewrite app_length in X. cbn in X. lia. }
  destruct (proper_legs asort AS gen h t comps fuel t' PR TR) as (A & _).
  assert (IN : In w0 (f_rows (get_results t'))).
  { apply (in_rows_with_id i). rewrite R'. apply in_app_iff. right. left. auto. }
  destruct (A w0 IN) as (U & W & c & C & EN & _).
  assert (Q : here (row_end w0) = vadd (here (row_start w0)) (vscale c (row_tilt w0))).
  { rewrite EN. revert W. unfold here, vset_w. destruct (row_start w0) as [e1 e2 e3 e4], (row_tilt w0) as [d1 d2 d3 d4]. vec. intros ->. f_equal; ring. }
  assert (CN : c = vnorm (vsub (here (row_end w0)) (here (row_start w0)))).
  { rewrite Q. replace (vsub (vadd (here (row_start w0)) (vscale c (row_tilt w0))) (here (row_start w0))) with (vscale c (row_tilt w0)).
    - symmetry. apply unit_scale_norm; [auto|lra].
    - destruct (here (row_start w0)) as [e1 e2 e3 e4], (row_tilt w0) as [d1 d2 d3 d4]. vec. f_equal; ring. }
  destruct (images_from asort AS gen h t t' comps fuel PR TR i ps rest before w w0 after (here (row_start w0)) c R' F LW LN) as (X & Y & Z); auto.
  { intros k p u K V. assert (V' : nth_error ws k = Some u).
    { rewrite <- E in V. rewrite nth_error_app1 in V; auto. rewrite <- (Forall2_length _ _ _ _ _ OM). apply nth_error_Some. congruence. }
    clear - OM K V'. revert k K V'. induction OM as [|a b l l' AB OM IH]; intros k K V; destruct k; cbn in *; try discriminate; [congruence|eauto]. }
  rewrite E. cbn [map walk]. rewrite <- CN. auto.
Qed.

(** ** Two mirrors *)
Lemma two_turns : forall n1 k1 n2 k2 v, facet_ok (n1, k1) -> facet_ok (n2, k2) ->
  let v' := fold_left turned_by [(n1, k1); (n2, k2)] v in
  (forall e, vdot e n1 = 0 -> vdot e n2 = 0 -> vdot e v' = vdot e v) /\
  (forall a b, v = vadd (vscale a n1) (vscale b n2) -> vdot v v' = (2 * (vdot n1 n2 * vdot n1 n2) - 1) * vdot v v).
Proof.
  intros n1 k1 n2 k2 v (U1 & W1) (U2 & W2) v'. cbn [fst snd] in *. unfold unit in *.
  assert (D : forall e, vdot e v' = vdot e v - 2 * vdot n1 v * vdot e n1 - 2 * (vdot n2 v - 2 * vdot n1 v * vdot n1 n2) * vdot e n2).
  { intro e. unfold v'. cbn [fold_left]. destruct n1 as [a1 a2 a3 a4], n2 as [b1 b2 b3 b4], v as [v1 v2 v3 v5], e as [e1 e2 e3 e4]. vec. ring. }
  split.
  - intros e E1 E2. rewrite D, E1, E2. ring.
  - intros a b E. rewrite D. rewrite (vdot_comm v n1), (vdot_comm v n2).
    set (c := vdot n1 n2) in *.
    assert (P1 : vdot n1 v = a + b * c) by (rewrite E, vdot_add_r, !vdot_scale_r, U1; unfold c; ring).
    assert (P2 : vdot n2 v = a * c + b) by (rewrite E, vdot_add_r, !vdot_scale_r, U2, (vdot_comm n2 n1); unfold c; ring).
    assert (P3 : vdot v v = a * (a + b * c) + b * (a * c + b)) by (rewrite E at 1; rewrite vdot_add_l, !vdot_scale_l, P1, P2; auto).
    rewrite P1, P2, P3. ring.
Qed.

Lemma two_turns_split : forall n1 k1 n2 k2 v e, vdot e n1 = 0 -> vdot e n2 = 0 ->
  vsub (fold_left turned_by [(n1, k1); (n2, k2)] v) e = fold_left turned_by [(n1, k1); (n2, k2)] (vsub v e).
Proof.
  intros n1 k1 n2 k2 v e E1 E2. rewrite vdot_comm in E1, E2.
  assert (S : forall n k u, vdot n e = 0 -> turned_by (vsub u e) (n, k) = vsub (turned_by u (n, k)) e).
  { intros n k u Z. unfold turned_by. cbn [fst]. replace (vdot n (vsub u e)) with (vdot n u).
    - destruct n as [n1' n2' n3' n4'], u as [u1 u2 u3 u4], e as [e1 e2 e3 e4]. vec. f_equal; ring.
    - replace (vdot n (vsub u e)) with (vdot n u - vdot n e); [rewrite Z; ring|]. destruct n as [n1' n2' n3' n4'], u as [u1 u2 u3 u4], e as [e1 e2 e3 e4]. vec. ring. }
  cbn [fold_left]. rewrite !S by auto. reflexivity.
Qed.

(** ** Three mirrors at right angles *)
Lemma frame_spans : forall n1 n2 n3 u, unit n1 -> unit n2 -> unit n3 -> vw n1 = 0 -> vw n2 = 0 -> vw n3 = 0 ->
  vdot n1 n2 = 0 -> vdot n1 n3 = 0 -> vdot n2 n3 = 0 -> vw u = 0 ->
  u = vadd (vadd (vscale (vdot n1 u) n1) (vscale (vdot n2 u) n2)) (vscale (vdot n3 u) n3).
Proof.
  intros n1 n2 n3 u U1 U2 U3 W1 W2 W3 O12 O13 O23 WU.
  set (r := vsub u (vadd (vadd (vscale (vdot n1 u) n1) (vscale (vdot n2 u) n2)) (vscale (vdot n3 u) n3))).
  assert (D : forall n, vdot n r = vdot n u - vdot n1 u * vdot n n1 - vdot n2 u * vdot n n2 - vdot n3 u * vdot n n3).
  { intro n. unfold r. destruct n1 as [a1 a2 a3 a4], n2 as [b1 b2 b3 b4], n3 as [c1 c2 c3 c4], u as [v1 v2 v3 v5], n as [e1 e2 e3 e4]. vec. ring. }
  unfold unit in *.
  assert (R1 : vdot n1 r = 0) by (rewrite D, U1, O12, O13; ring).
  assert (R2 : vdot n2 r = 0) by (rewrite D, U2, (vdot_comm n2 n1), O12, O23; ring).
  assert (R3 : vdot n3 r = 0) by (rewrite D, U3, (vdot_comm n3 n1), (vdot_comm n3 n2), O13, O23; ring).
  assert (WR : vw r = 0).
  { unfold r. revert WU W1 W2 W3. destruct n1 as [a1 a2 a3 a4], n2 as [b1 b2 b3 b4], n3 as [c1 c2 c3 c4], u as [v1 v2 v3 v5]. vec. intros -> -> -> ->. ring. }
  assert (Z : r = V4 0 0 0 0).
  { clearbody r. clear D. destruct n1 as [a1 a2 a3 a4], n2 as [b1 b2 b3 b4], n3 as [c1 c2 c3 c4], r as [r1 r2 r3 r4].
    revert U1 U2 U3 O12 O13 O23 R1 R2 R3. unfold vdot. cbn [vx vy vz vw] in *. subst a4 b4 c4 r4. intros U1 U2 U3 O12 O13 O23 R1 R2 R3.
    set (det := a1 * (b2 * c3 - b3 * c2) - a2 * (b1 * c3 - b3 * c1) + a3 * (b1 * c2 - b2 * c1)).
    assert (DD : det * det = 1).
    { transitivity ((a1*a1+a2*a2+a3*a3+0*0) * ((b1*b1+b2*b2+b3*b3+0*0)*(c1*c1+c2*c2+c3*c3+0*0) - (b1*c1+b2*c2+b3*c3+0*0)*(b1*c1+b2*c2+b3*c3+0*0))
        - (a1*b1+a2*b2+a3*b3+0*0) * ((a1*b1+a2*b2+a3*b3+0*0)*(c1*c1+c2*c2+c3*c3+0*0) - (b1*c1+b2*c2+b3*c3+0*0)*(a1*c1+a2*c2+a3*c3+0*0))
        + (a1*c1+a2*c2+a3*c3+0*0) * ((a1*b1+a2*b2+a3*b3+0*0)*(b1*c1+b2*c2+b3*c3+0*0) - (b1*b1+b2*b2+b3*b3+0*0)*(a1*c1+a2*c2+a3*c3+0*0))).
      - unfold det; ring.
      - rewrite U1, U2, U3, O12, O13, O23. ring. }
    assert (NZ : det <> 0) by (intro Z; rewrite Z in DD; lra).
    f_equal; apply (Rmult_eq_reg_l det); auto.
    - transitivity ((a1*r1+a2*r2+a3*r3+0*0) * (b2*c3-b3*c2) - (b1*r1+b2*r2+b3*r3+0*0) * (a2*c3-a3*c2) + (c1*r1+c2*r2+c3*r3+0*0) * (a2*b3-a3*b2)); [unfold det; ring|rewrite R1, R2, R3; ring].
    - transitivity (- (a1*r1+a2*r2+a3*r3+0*0) * (b1*c3-b3*c1) + (b1*r1+b2*r2+b3*r3+0*0) * (a1*c3-a3*c1) - (c1*r1+c2*r2+c3*r3+0*0) * (a1*b3-a3*b1)); [unfold det; ring|rewrite R1, R2, R3; ring].
    - transitivity ((a1*r1+a2*r2+a3*r3+0*0) * (b1*c2-b2*c1) - (b1*r1+b2*r2+b3*r3+0*0) * (a1*c2-a2*c1) + (c1*r1+c2*r2+c3*r3+0*0) * (a1*b2-a2*b1)); [unfold det; ring|rewrite R1, R2, R3; ring]. }
  unfold r in Z. destruct u as [u1 u2 u3 u4].
  destruct (vadd (vadd (vscale (vdot n1 (V4 u1 u2 u3 u4)) n1) (vscale (vdot n2 (V4 u1 u2 u3 u4)) n2)) (vscale (vdot n3 (V4 u1 u2 u3 u4)) n3)) as [s1 s2 s3 s4].
  revert Z. vec. intro Z. injection Z as Z1 Z2 Z3 Z4. f_equal; lra.
Qed.
Lemma three_turns : forall n1 k1 n2 k2 n3 k3, facet_ok (n1, k1) -> facet_ok (n2, k2) -> facet_ok (n3, k3) ->
  vdot n1 n2 = 0 -> vdot n1 n3 = 0 -> vdot n2 n3 = 0 ->
  let ps := [(n1, k1); (n2, k2); (n3, k3)] in
  (forall v, vw v = 0 -> fold_left turned_by ps v = vopp v) /\
  (forall corner q, vdot n1 corner = k1 -> vdot n2 corner = k2 -> vdot n3 corner = k3 -> vw corner = 1 -> vw q = 1 ->
     fold_left image_of ps q = vsub (vscale 2 corner) q).
Proof.
  intros n1 k1 n2 k2 n3 k3 (U1 & W1) (U2 & W2) (U3 & W3) O12 O13 O23 ps. cbn [fst snd] in *.
  assert (T : forall v, vw v = 0 -> fold_left turned_by ps v = vopp v).
  { intros v WV. pose proof (frame_spans n1 n2 n3 v U1 U2 U3 W1 W2 W3 O12 O13 O23 WV) as SP.
    assert (E : fold_left turned_by ps v = vsub v (vscale 2 (vadd (vadd (vscale (vdot n1 v) n1) (vscale (vdot n2 v) n2)) (vscale (vdot n3 v) n3)))).
    { unfold ps. cbn [fold_left].
      assert (A : vdot n2 (turned_by v (n1, k1)) = vdot n2 v).
      { replace (vdot n2 (turned_by v (n1, k1))) with (vdot n2 v - 2 * vdot n1 v * vdot n1 n2); [rewrite O12; ring|].
        destruct n1, n2, v. vec. ring. }
      assert (B : vdot n3 (turned_by (turned_by v (n1, k1)) (n2, k2)) = vdot n3 v).
      { replace (vdot n3 (turned_by (turned_by v (n1, k1)) (n2, k2))) with (vdot n3 v - 2 * vdot n1 v * vdot n1 n3 - 2 * vdot n2 (turned_by v (n1, k1)) * vdot n2 n3); [rewrite O13, O23; ring|].
        destruct n1, n2, n3, v. vec. ring. }
      unfold turned_by at 1. cbn [fst snd]. rewrite B. unfold turned_by at 1. cbn [fst snd]. rewrite A. unfold turned_by; cbn [fst snd].
      generalize (vdot n1 v) (vdot n2 v) (vdot n3 v). intros x y z. destruct n1, n2, n3, v. vec. f_equal; ring. }
    rewrite E, <- SP. destruct v. vec. f_equal; ring. }
  split; auto. intros corner q K1 K2 K3 WC WQ.
  assert (I : forall p x, vdot (fst p) corner = snd p -> image_of x p = vadd corner (turned_by (vsub x corner) p)).
  { intros (n, k) x. cbn [fst snd]. intros <-. destruct n, x, corner. vec. f_equal; ring. }
  assert (S : forall c v, vsub (vadd c v) c = v) by (intros c v; destruct c, v; vec; f_equal; ring).
  unfold ps. cbn [fold_left]. rewrite (I (n1, k1)) by auto. rewrite (I (n2, k2)) by auto. rewrite (I (n3, k3)) by auto. rewrite !S.
  change (turned_by (turned_by (turned_by (vsub q corner) (n1, k1)) (n2, k2)) (n3, k3)) with (fold_left turned_by ps (vsub q corner)).
  rewrite T.
  - destruct q, corner. vec. f_equal; ring.
  - revert WC WQ. destruct q, corner. vec. intros -> ->. ring.
Qed.
