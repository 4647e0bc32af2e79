(** * FlSeenProps: computed hits on moved objects *)
From Coq Require Import Reals List Bool Lra Lia Psatz.
Import ListNotations.
From Verif Require Import XR XRFacts Lin LinFacts Fl FlHits SpecFl FlFacts SpecFlHits FlHitsRoot FlHitsOn SpecFlWorld SpecFlSeen FlSeenFacts.
Open Scope R_scope.

Ltac vs := vsimp; cbn [vx vy vz vw]; ring.
(** Linear facts *)
Lemma abs_out : forall x e, Rabs x <= e -> - e <= x <= e.
Proof. intros x e H. unfold Rabs in H. destruct Rcase_abs in H; lra. Qed.
Lemma mapply_sub : forall m v w, mapply m (vsub v w) = vsub (mapply m v) (mapply m w).
Proof. intros [r0 r1 r2 r3] [? ? ? ?] [? ? ? ?]. vr. Qed.
Lemma off_axis_close : forall k q q', vdot k k = 1 -> Rabs (off_axis k q - off_axis k q') <= vnorm (vsub q q').
Proof.
  intros k q q' K. unfold off_axis. eapply Rle_trans; [apply vnorm_close|].
  replace (vsub (vsub q (vscale (vdot q k) k)) (vsub q' (vscale (vdot q' k) k))) with (vsub (vsub q q') (vscale (vdot (vsub q q') k) k)) by (destruct q, q', k; vr).
  generalize (vsub q q'). intro e. apply le_of_sqr; [apply vnorm_nonneg|]. rewrite !vnorm_sqr.
  replace (vdot (vsub e (vscale (vdot e k) k)) (vsub e (vscale (vdot e k) k))) with (vdot e e - vdot e k * vdot e k * (2 - vdot k k)) by (destruct e, k; vs).
  rewrite K. nra.
Qed.

Section Hits.
  Variables (rnd : R -> R) (lo u eta : R).
  Hypothesis CL : clear lo u eta.
  Hypothesis RW : rounds_within u eta rnd.
  Hypothesis LN : leaves_numbers rnd.
  Variables (a b rho P : R) (W M X : mat).
  Hypothesis A : 0 <= a <= / 100.
  Hypothesis B : 0 <= b <= / 100.
  Hypothesis RHO : 0 <= rho <= / 100.
  Hypothesis PP : 0 <= P.
  Hypothesis NP : near_placement a b P W M.
  Hypothesis IV : inverts rho P W X.
  Variables (o d o' d' : v4) (t L : R).
  Hypothesis WR : within_reach lo L P o d t.
  Hypothesis IO : fl_image rnd X o o'.
  Hypothesis ID : fl_image rnd X d d'.

  Lemma U01 : 0 <= u <= / 1000000. Proof. apply CL. Qed.
  Lemma eta_lo : 0 <= eta <= / 1000000 * lo /\ eta <= / 1000000.
  Proof.
    destruct CL as ((L0 & L1) & (U0 & U1) & E0 & E1). assert (lo ^ 4 <= lo). { simpl. assert (lo * lo <= lo) by nra. assert (0 <= lo * lo) by nra. nra. }
    assert (0 <= lo ^ 4) by (apply pow_le; lra). assert (u * lo ^ 4 <= / 1000000 * lo) by nra. nra.
  Qed.
  Lemma seen_reach : reach X o d t (8 * L).
  Proof.
    destruct WR as (OW & DW & _ & OL & TD & PL & LL). destruct (inverse_rows a b rho P W M X A B RHO PP NP IV) as (R0 & R1 & R2).
    assert (O : Rabs (vx o) <= L /\ Rabs (vy o) <= L /\ Rabs (vz o) <= L).
    { pose proof (coord_le (vsub o (point 0 0 0))) as (C1 & C2 & C3). unfold from_origin in OL. destruct o as [o1 o2 o3 o4]. unfold vsub, vadd, vopp, vscale, point in C1, C2, C3, OL. cbn [vx vy vz vw] in *.
      replace (o1 + -1 * 0) with o1 in * by ring. replace (o2 + -1 * 0) with o2 in * by ring. replace (o3 + -1 * 0) with o3 in * by ring. repeat split; lra. }
    assert (D : Rabs (t * vx d) <= L /\ Rabs (t * vy d) <= L /\ Rabs (t * vz d) <= L).
    { pose proof (coord_le d) as (C1 & C2 & C3). pose proof (Rabs_pos t). rewrite !Rabs_mult. repeat split; (eapply Rle_trans; [apply Rmult_le_compat_l; [apply Rabs_pos|eassumption]|exact TD]). }
    assert (K : forall r, row_ok P r -> terms r o d t <= 8 * L).
    { intros r (A1 & A2 & A3 & A4). unfold terms. rewrite OW, DW, Rmult_0_r, Rabs_R0, Rabs_R1, Rplus_0_r, Rmult_1_r. destruct O as (O1 & O2 & O3), D as (D1 & D2 & D3).
      assert (Q : forall x y z, Rabs x <= 11 / 10 -> Rabs y <= L -> Rabs z <= L -> Rabs x * (Rabs y + Rabs z) <= 11 / 10 * (L + L)).
      { intros x y z H1 H2 H3. pose proof (Rabs_pos y). pose proof (Rabs_pos z). apply Rmult_le_compat; try apply Rabs_pos; lra. }
      pose proof (Q _ _ _ A1 O1 D1). pose proof (Q _ _ _ A2 O2 D2). pose proof (Q _ _ _ A3 O3 D3). lra. }
    repeat split; apply K; assumption.
  Qed.
  Lemma seen_entries : entries_below X (/ lo).
  Proof.
    destruct WR as (_ & _ & _ & _ & _ & PL & _ & LL). destruct (inverse_rows a b rho P W M X A B RHO PP NP IV) as (R0 & R1 & R2). pose proof (inv_lo lo u eta CL) as (I & _).
    assert (K : forall r, row_ok P r -> Rabs (vx r) <= / lo /\ Rabs (vy r) <= / lo /\ Rabs (vz r) <= / lo /\ Rabs (vw r) <= / lo) by (intros r (A1 & A2 & A3 & A4); repeat split; lra).
    intros r [-> | [-> | ->]]; apply K; assumption.
  Qed.
  Lemma seen_direction : / 10 <= from_centre d' <= 10.
  Proof.
    destruct WR as (_ & DW & DN & _). destruct (inverse_rows a b rho P W M X A B RHO PP NP IV) as (R0 & R1 & R2). pose proof U01 as (U0 & U1). pose proof eta_lo as ((E0 & _) & E1).
    pose proof (inverse_norm a b rho P W M X A RHO NP IV d DW) as (N1 & N2). pose proof (coord_le d) as (C1 & C2 & C3).
    assert (K : forall r x, row_ok P r -> rdot rnd (pairs r d) x -> Rabs (x - vdot r d) <= / 10000).
    { intros r x (A1 & A2 & A3 & A4) H. pose proof (rdot4 rnd u eta U0 E0 RW U1 r d x H) as Q. eapply Rle_trans; [exact Q|].
      assert (S : asum (pairs r d) <= 7). { unfold asum, pairs, coords. cbn [combine fold_right fst snd]. rewrite DW, Rmult_0_r, Rabs_R0, !Rabs_mult.
        assert (Z : forall p q, Rabs p <= 11 / 10 -> Rabs q <= vnorm d -> Rabs p * Rabs q <= 11 / 10 * 2) by (intros; apply Rmult_le_compat; try apply Rabs_pos; lra).
        pose proof (Z _ _ A1 C1). pose proof (Z _ _ A2 C2). pose proof (Z _ _ A3 C3). lra. }
      assert (5 * u * asum (pairs r d) <= 5 * / 1000000 * 7). { pose proof (asum_nonneg (pairs r d)). apply Rmult_le_compat; lra. } lra. }
    destruct ID as (I0 & I1 & I2 & _). apply K in I0; [|assumption]. apply K in I1; [|assumption]. apply K in I2; [|assumption].
    pose proof (coord_le (mapply X d)) as (V1 & V2 & V3). pose proof (vnorm_sqr (mapply X d)) as SQ. assert (XW : vw (mapply X d) = 0) by (rewrite (inverse_w rho P W X IV); exact DW).
    pose proof (vnorm_nonneg (mapply X d)) as NN. unfold vdot at 1 in SQ. rewrite XW in SQ. cbn [mapply vx vy vz] in V1, V2, V3, SQ. unfold from_centre.
    set (n := vnorm (mapply X d)) in *. set (x := vdot (row0 X) d) in *. set (y := vdot (row1 X) d) in *. set (z := vdot (row2 X) d) in *.
    assert (T : forall p q, Rabs (p - q) <= / 10000 -> Rabs q <= n -> Rabs (p * p - q * q) <= / 1000).
    { intros p q H1 H2. replace (p * p - q * q) with ((p - q) * (p + q)) by ring. rewrite Rabs_mult. apply Rle_trans with (/ 10000 * 5); [|lra].
      apply Rmult_le_compat; try apply Rabs_pos; [lra|]. replace (p + q) with ((p - q) + 2 * q) by ring. eapply Rle_trans; [apply Rabs_triang|]. rewrite Rabs_mult, (Rabs_right 2) by lra. lra. }
    apply T in I0; [|assumption]. apply T in I1; [|assumption]. apply T in I2; [|assumption].
    assert (NB : 9 / 20 <= n <= 22 / 10) by lra. assert (QB : 81 / 400 <= n * n <= 484 / 100) by nra.
    apply abs_out in I0. apply abs_out in I1. apply abs_out in I2. lra.
  Qed.
  Lemma seen_weight : vw (fl_move rnd o d t) = 1.
  Proof.
    destruct WR as (OW & DW & _). destruct LN as (Z0 & Z1 & _). unfold fl_move, vround, vadd, vscale. cbn [vw]. rewrite OW, DW, Rmult_0_r, Z0, Rplus_0_r. exact Z1.
  Qed.
  Lemma seen_from_origin : from_origin (fl_move rnd o d t) <= 21 / 10 * L.
  Proof.
    destruct WR as (OW & DW & _ & OL & TD & PL & LL & _). pose proof U01 as (U0 & U1). pose proof eta_lo as ((E0 & E1) & _). destruct LN as (Z0 & Z1 & _). unfold from_origin in *.
    assert (E : vsub (fl_move rnd o d t) (point 0 0 0) = vround rnd (vadd (vsub o (point 0 0 0)) (vround rnd (vscale t d)))).
    { assert (NZ : forall z, z + -1 * 0 = z) by (intro; ring). apply v4_eq; unfold fl_move, vround, vsub, vadd, vopp, vscale, point; cbn [vx vy vz vw]; rewrite ?NZ; try reflexivity.
      rewrite OW, DW, Rmult_0_r, Z0, Rplus_0_r, Z1. replace (1 + -1 * 1 + 0) with 0 by ring. rewrite Z0. ring. }
    rewrite E. set (v := vsub o (point 0 0 0)) in *. pose proof (vnorm_scale t d) as ST. rewrite <- ST in TD. set (w := vscale t d) in *. pose proof (vnorm_nonneg w). pose proof (vnorm_nonneg v).
    pose proof (vround_close rnd u eta U0 E0 RW w) as C1. pose proof (vround_close rnd u eta U0 E0 RW (vadd v (vround rnd w))) as C2.
    pose proof (vnorm_close (vround rnd w) w) as D1. pose proof (vnorm_close (vround rnd (vadd v (vround rnd w))) (vadd v (vround rnd w))) as D2. pose proof (vnorm_add v (vround rnd w)) as D3.
    set (x := vnorm (vround rnd w)) in *. set (y := vnorm (vadd v (vround rnd w))) in *. set (z := vnorm (vround rnd (vadd v (vround rnd w)))) in *.
    assert (F1 : Rabs (x - vnorm w) <= u * vnorm w + 2 * eta) by lra. assert (F2 : Rabs (z - y) <= u * y + 2 * eta) by lra. apply abs_out in F1. apply abs_out in F2.
    assert (0 <= y) by apply vnorm_nonneg. assert (u * vnorm w <= / 1000000 * L) by (apply Rmult_le_compat; lra). assert (YL : y <= 201 / 100 * L) by lra. assert (u * y <= / 1000000 * (201 / 100 * L)) by (apply Rmult_le_compat; lra). lra.
  Qed.
  (** the point of the exact placement that has the computed coordinates of the hit *)
  Lemma seen_close : vnorm (vsub (mapply M (mapply X (fl_move rnd o d t))) (fl_move rnd o d t)) <= (4 * rho + 4 * a + b) * L.
  Proof.
    pose proof (coordinates_close a b rho P W M X NP IV _ seen_weight) as C. pose proof (coordinates_bound a b rho P W M X A B RHO PP NP IV _ seen_weight) as D. pose proof seen_from_origin as F.
    destruct WR as (_ & _ & _ & _ & _ & PL & _). set (p := fl_move rnd o d t) in *. eapply Rle_trans; [exact C|].
    assert (rho * (from_origin p + P) <= rho * (4 * L)) by (apply Rmult_le_compat_l; lra). assert (a * from_origin (mapply X p) <= a * (4 * L)) by (apply Rmult_le_compat_l; lra). assert (b * P <= b * L) by (apply Rmult_le_compat_l; lra). lra.
  Qed.
  (** from a surface equation in the object's coordinates to the distance in the world *)
  Hypothesis MP : forall v w, vw v = 0 -> vw w = 0 -> vdot (mapply M v) (mapply M w) = vdot v w.
  Let p := fl_move rnd o d t.
  Let y := mapply X p.
  Let q := vsub p (mapply M (point 0 0 0)).
  Let q' := vsub (mapply M y) (mapply M (point 0 0 0)).
  Lemma seen_q : vnorm (vsub q q') <= (4 * rho + 4 * a + b) * L.
  Proof. pose proof seen_close as C. rewrite norm_sym in C. unfold q, q'. fold p in C. fold y in C. replace (vsub (vsub p _) (vsub (mapply M y) _)) with (vsub p (mapply M y)); [exact C|]. destruct p, (mapply M y), (mapply M (point 0 0 0)). vr. Qed.
  Lemma seen_y : vw (vsub y (point 0 0 0)) = 0.
  Proof. rewrite vsub_w. unfold y. rewrite (inverse_w rho P W X IV). unfold p. rewrite seen_weight. cbn. ring. Qed.
  Lemma seen_q' : q' = mapply M (vsub y (point 0 0 0)).
  Proof. unfold q'. rewrite mapply_sub. reflexivity. Qed.
  Lemma seen_sphere : vnorm q' = sqrt (from_centre y).
  Proof. unfold vnorm. rewrite seen_q', MP by apply seen_y. f_equal. pose proof seen_y as Y. destruct y as [y1 y2 y3 y4]. unfold vsub, vadd, vopp, vscale, point in Y. cbn [vw] in Y. unfold vdot, from_centre, vsub, vadd, vopp, vscale, point. cbn [vx vy vz vw]. rewrite Y. ring. Qed.
  Lemma seen_along : forall k f, In (k, f) axes -> vdot q' (mapply M k) = f y /\ vdot (mapply M k) (mapply M k) = 1.
  Proof.
    intros k f I. assert (K : vw k = 0) by (destruct I as [E|[E|[E|[]]]]; injection E as <- <-; reflexivity). rewrite seen_q', !MP by (auto; apply seen_y).
    destruct I as [E|[E|[E|[]]]]; injection E as <- <-; destruct y; unfold vdot; cbn; split; ring.
  Qed.
  Lemma seen_side : off_axis (mapply M (vector 0 0 1)) q' = sqrt (from_axis y).
  Proof.
    destruct (seen_along (vector 0 0 1) vz) as (E & _); [cbn; auto|]. unfold off_axis. rewrite E, seen_q'. replace (vscale (vz y) (mapply M (vector 0 0 1))) with (mapply M (vscale (vz y) (vector 0 0 1))) by (apply mapply_scale).
    rewrite <- mapply_sub. unfold vnorm. assert (V : vw (vsub (vsub y (point 0 0 0)) (vscale (vz y) (vector 0 0 1))) = 0) by (rewrite vsub_w, seen_y; cbn; ring).
    rewrite MP by exact V. f_equal. pose proof seen_y as Y. destruct y as [y1 y2 y3 y4]. unfold vsub, vadd, vopp, vscale, point, vector in *. cbn [vx vy vz vw] in *. unfold vdot, from_axis. cbn [vx vy vz vw]. rewrite V. ring.
  Qed.
  Lemma root_near : forall x r S, 0 <= x -> 0 < r -> Rabs (x - r * r) <= 8192 * u * ((8 * L) * (8 * L)) -> S = 524288 * u * L * (L / r) -> Rabs (sqrt x - r) <= S.
  Proof.
    intros x r S X0 R0 H ->. pose proof (sqrt_pos x) as Q. pose proof (sqrt_sqrt x X0) as SQ.
    assert (F : Rabs (sqrt x - r) * r <= Rabs (x - r * r)).
    { replace (x - r * r) with (sqrt x * sqrt x - r * r) by (rewrite SQ; ring). replace (sqrt x * sqrt x - r * r) with ((sqrt x - r) * (sqrt x + r)) by ring. rewrite Rabs_mult. apply Rmult_le_compat_l; [apply Rabs_pos|]. rewrite Rabs_right by lra. lra. }
    replace (524288 * u * L * (L / r)) with ((8192 * u * (8 * L * (8 * L))) * / r) by (field; lra).
    apply Rmult_le_reg_r with r; [lra|]. rewrite Rmult_assoc, Rinv_l, Rmult_1_r by lra. lra.
  Qed.
  Lemma lo_dir : lo * lo <= from_centre d' <= / lo * / lo /\ from_axis d' <= / lo * / lo /\ Rabs (vx d') <= / lo /\ Rabs (vy d') <= / lo /\ Rabs (vz d') <= / lo /\ 0 < lo <= 8 * L.
  Proof.
    pose proof seen_direction as (D1 & D2). destruct WR as (_ & _ & _ & _ & _ & _ & LL & _). pose proof (inv_lo lo u eta CL) as (I1 & I2 & _). pose proof (lo_sqr lo u eta CL) as (S1 & _). destruct CL as ((L0 & L1) & _).
    unfold from_centre, from_axis in *. assert (K : forall z, z * z <= 10 -> Rabs z <= / lo) by (intros z Z; unfold Rabs; destruct Rcase_abs; nra).
    repeat split; try lra; try nra; apply K; nra.
  Qed.
  Theorem met_sphere : forall r, 0 < r <= L -> either (fl_sphere_hits rnd r o' d') t ->
    Rabs (vnorm q - r) <= 524288 * u * L * (L / r) + (4 * rho + 4 * a + b) * L.
  Proof.
    intros r R H. pose proof lo_dir as (D & _ & _ & _ & _ & LL). assert (R8 : 0 <= r <= 8 * L) by lra.
    pose proof (sphere_on rnd lo u eta CL RW X r o d o' d' t (8 * L) IO ID H seen_reach R8 (proj2 LL) seen_entries D) as S. fold p in S. fold y in S.
    eapply root_near in S; [|unfold from_centre; nra|lra|reflexivity]. rewrite <- seen_sphere in S. pose proof (vnorm_close q q') as C. pose proof seen_q as Q.
    replace (vnorm q - r) with ((vnorm q' - r) + (vnorm q - vnorm q')) by ring. apply abs_tri; [exact S|eapply Rle_trans; [exact C|exact Q]].
  Qed.
  Theorem met_side : forall r, 0 < r <= L -> either (fl_side_hits rnd r o' d') t ->
    Rabs (off_axis (mapply M (vector 0 0 1)) q - r) <= 524288 * u * L * (L / r) + (4 * rho + 4 * a + b) * L.
  Proof.
    intros r R H. pose proof lo_dir as (_ & D & _ & _ & _ & LL). assert (R8 : 0 <= r <= 8 * L) by lra.
    pose proof (side_on rnd lo u eta CL RW X r o d o' d' t (8 * L) IO ID H seen_reach R8 (proj2 LL) seen_entries D) as S. fold p in S. fold y in S.
    eapply root_near in S; [|unfold from_axis; nra|lra|reflexivity]. rewrite <- seen_side in S. destruct (seen_along (vector 0 0 1) vz) as (_ & K); [cbn; auto|]. pose proof (off_axis_close _ q q' K) as C. pose proof seen_q as Q.
    set (f := off_axis (mapply M (vector 0 0 1))) in *. replace (f q - r) with ((f q' - r) + (f q - f q')) by ring. apply abs_tri; [exact S|eapply Rle_trans; [exact C|exact Q]].
  Qed.
  Theorem met_face : forall k f h, In (k, f) axes -> Rabs h <= L -> fl_face_hit rnd h (f o') (f d') t ->
    Rabs (vdot q (mapply M k) - h) <= 256 * u * L + (4 * rho + 4 * a + b) * L.
  Proof.
    intros k f h I HL H. pose proof lo_dir as (_ & _ & D1 & D2 & D3 & LL). assert (H8 : Rabs h <= 8 * L) by lra. destruct seen_reach as (T1 & T2 & T3). destruct IO as (I0 & I1 & I2 & _), ID as (J0 & J1 & J2 & _).
    destruct (seen_along k f I) as (E & K). assert (S : Rabs (f y - h) <= 32 * u * (8 * L)).
    { destruct I as [EQ|[EQ|[EQ|[]]]]; injection EQ as <- <-.
      - destruct (seen_entries (row0 X)) as (W0 & W1 & W2 & W3); auto. exact (face_on rnd lo u eta CL RW (row0 X) o d t _ _ h (8 * L) I0 J0 H T1 H8 (proj2 LL) W0 W1 W2 W3 D1).
      - destruct (seen_entries (row1 X)) as (W0 & W1 & W2 & W3); auto. exact (face_on rnd lo u eta CL RW (row1 X) o d t _ _ h (8 * L) I1 J1 H T2 H8 (proj2 LL) W0 W1 W2 W3 D2).
      - destruct (seen_entries (row2 X)) as (W0 & W1 & W2 & W3); auto. exact (face_on rnd lo u eta CL RW (row2 X) o d t _ _ h (8 * L) I2 J2 H T3 H8 (proj2 LL) W0 W1 W2 W3 D3). }
    rewrite <- E in S. replace (vdot q (mapply M k) - h) with ((vdot q' (mapply M k) - h) + vdot (vsub q q') (mapply M k)) by (generalize q q' (mapply M k); intros [? ? ? ?] [? ? ? ?] [? ? ? ?]; vs).
    apply abs_tri; [lra|]. eapply Rle_trans; [|exact seen_q]. assert (N : vnorm (mapply M k) = 1) by (unfold vnorm; rewrite K; apply sqrt_1).
    pose proof (vdot_le (vsub q q') (mapply M k)) as V1. pose proof (vdot_le (vopp (vsub q q')) (mapply M k)) as V2. rewrite N, Rmult_1_r in *.
    replace (vdot (vopp (vsub q q')) (mapply M k)) with (- vdot (vsub q q') (mapply M k)) in V2 by (generalize (vsub q q') (mapply M k); intros [? ? ? ?] [? ? ? ?]; vs).
    rewrite vnorm_opp in V2. unfold Rabs. destruct Rcase_abs; lra.
  Qed.
End Hits.
