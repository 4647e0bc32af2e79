(** * FlMetBowl: computed hits on moved paraboloids *)
From Coq Require Import Reals List Bool Lra Lia Psatz.
Import ListNotations.
From Verif Require Import XR XRFacts Lin LinFacts World SpecWorld Fl FlHits SpecFl FlFacts FlWorld SpecFlWorld SpecFlHits FlHitsBowl FlBowl SpecFlBowl FlBowlLine SpecFlSeen FlSeenFacts FlSeenProps FlSeenHist SpecFlMetBowl FlHitsProps FlHitsRoot FlWorldMoves.
Open Scope R_scope.

Lemma off_axis_size : forall k q, vdot k k = 1 -> 0 <= off_axis k q <= vnorm q.
Proof.
  intros k q K. split; [apply vnorm_nonneg|]. pose proof (off_axis_close k q (V4 0 0 0 0) K) as C.
  assert (Z : off_axis k (V4 0 0 0 0) = 0). { unfold off_axis, vnorm. replace (vdot _ _) with 0; [apply sqrt_0|]. destruct k. vs. }
  rewrite Z, Rminus_0_r in C. replace (vsub q (V4 0 0 0 0)) with q in C by (destruct q; vr).
  pose proof (vnorm_nonneg (vsub q (vscale (vdot q k) k))) as N. fold (off_axis k q) in N. rewrite Rabs_right in C; lra.
Qed.
Lemma off_axis_along : forall k q s, vdot k k = 1 -> off_axis k (vadd q (vscale s k)) = off_axis k q /\ vdot (vadd q (vscale s k)) k = vdot q k + s.
Proof.
  intros k q s K. assert (E : vdot (vadd q (vscale s k)) k = vdot q k + s).
  { replace (vdot (vadd q (vscale s k)) k) with (vdot q k + s * vdot k k) by (destruct q, k; vs). rewrite K. ring. }
  split; [|exact E]. unfold off_axis. rewrite E. f_equal. generalize (vdot q k). intro x. destruct q, k. vr.
Qed.
Lemma vdot_abs : forall v k, vdot k k = 1 -> Rabs (vdot v k) <= vnorm v.
Proof.
  intros v k K. assert (N : vnorm k = 1) by (unfold vnorm; rewrite K; apply sqrt_1).
  pose proof (vdot_le v k) as V1. pose proof (vdot_le (vopp v) k) as V2. rewrite N, Rmult_1_r in *.
  replace (vdot (vopp v) k) with (- vdot v k) in V2 by (destruct v, k; vs). rewrite vnorm_opp in V2. unfold Rabs. destruct Rcase_abs; lra.
Qed.
Lemma bowl_near : forall k f q r, vdot k k = 1 -> 0 < f -> Rabs (off_axis k q * off_axis k q - 4 * f * vdot q k) <= 4 * f * r -> near_bowl k f q r.
Proof.
  intros k f q r K F H. set (g := off_axis k q * off_axis k q - 4 * f * vdot q k) in *. exists (g / (4 * f)).
  split.
  - unfold Rdiv. rewrite Rabs_mult, (Rabs_right (/ (4 * f))) by (left; apply Rinv_0_lt_compat; lra). apply Rmult_le_reg_r with (4 * f); [lra|]. rewrite Rmult_assoc, Rinv_l, Rmult_1_r by lra. lra.
  - unfold on_bowl. destruct (off_axis_along k q (g / (4 * f)) K) as (-> & ->). unfold g. field. lra.
Qed.

Section Hits.
  Variables (rnd : R -> R) (lo u eta : R).
  Hypothesis CL : clear lo u eta.
  Hypothesis UP : 0 < u.
  Hypothesis RW : rounds_within u eta rnd.
  Hypothesis LN : leaves_numbers rnd.
  Variables (a b rho P : R) (W M X : mat).
  Hypothesis A : 0 <= a <= / 100.
  Hypothesis B : 0 <= b <= / 100.
  Hypothesis RHO : 0 <= rho <= / 100.
  Hypothesis PP : 0 <= P.
  Hypothesis NP : near_placement a b P W M.
  Hypothesis IV : inverts rho P W X.
  Variables (o d o' d' : v4) (t L : R).
  Hypothesis WR : within_reach lo L P o d t.
  Hypothesis IO : fl_image rnd X o o'.
  Hypothesis ID : fl_image rnd X d d'.
  Hypothesis MP : forall v w, vw v = 0 -> vw w = 0 -> vdot (mapply M v) (mapply M w) = vdot v w.
  Let p := fl_move rnd o d t.
  Let y := mapply X p.
  Let q := vsub p (mapply M (point 0 0 0)).
  Let q' := vsub (mapply M y) (mapply M (point 0 0 0)).
  Let k := mapply M (vector 0 0 1).
  Let D := (4 * rho + 4 * a + b) * L.

  Lemma carried : forall f E, 0 < f <= L -> Rabs (from_bowl f y) <= E -> Rabs (off_axis k q * off_axis k q - 4 * f * vdot q k) <= E + 12 * (D * L).
  Proof.
    intros f E F H.
    destruct (seen_along rnd lo LN rho P W M X IV o d t L WR MP (vector 0 0 1) vz) as (AL & K1); [cbn; auto|].
    pose proof (seen_side rnd lo LN rho P W M X IV o d t L WR MP) as SD. pose proof (seen_q rnd lo u eta CL RW LN a b rho P W M X A B RHO PP NP IV o d t L WR) as SQ.
    fold p in AL, SD, SQ. fold y in AL, SD, SQ. fold q in SQ. fold q' in AL, SD, SQ. fold k in AL, K1, SD. fold D in SQ.
    pose proof (seen_from_origin rnd lo u eta CL RW LN P PP o d t L WR) as FO. fold p in FO. unfold from_origin in FO.
    assert (LL : 0 <= L /\ P <= L) by (destruct WR as (_ & _ & _ & _ & _ & PL & _); lra).
    assert (QN : vnorm q <= 31 / 10 * L).
    { unfold q. eapply Rle_trans; [apply (norm3 p (point 0 0 0))|]. rewrite (norm_sym (point 0 0 0)). destruct NP as (_ & _ & _ & _ & _ & NP'). lra. }
    assert (D0 : 0 <= D <= 9 / 100 * L). { unfold D. split; [apply Rmult_le_pos; lra|apply Rmult_le_compat_r; lra]. }
    pose proof (off_axis_close k q q' K1) as OC. pose proof (off_axis_size k q K1) as (O0 & O1). pose proof (off_axis_size k q' K1) as (P0 & _).
    assert (OD : Rabs (off_axis k q - off_axis k q') <= D) by lra. pose proof (abs_out _ _ OD) as OD'.
    assert (VD : Rabs (vdot (vsub q q') k) <= D) by (eapply Rle_trans; [apply vdot_abs; exact K1|exact SQ]).
    assert (VE : vdot q k = vz y + vdot (vsub q q') k). { rewrite <- AL. generalize q q' k. intros [? ? ? ?] [? ? ? ?] [? ? ? ?]. vs. }
    assert (SY : off_axis k q' * off_axis k q' = from_axis y). { rewrite SD. apply sqrt_sqrt. unfold from_axis. nra. }
    unfold from_bowl in H. rewrite <- SY in H. rewrite VE.
    set (w := off_axis k q) in *. set (w' := off_axis k q') in *. set (e := vdot (vsub q q') k) in *.
    replace (w * w - 4 * f * (vz y + e)) with ((w' * w' - 4 * f * vz y) + ((w - w') * (w + w') - 4 * f * e)) by ring.
    apply abs_tri; [exact H|]. unfold Rminus. eapply Rle_trans; [apply Rabs_triang|]. rewrite Rabs_Ropp, !Rabs_mult.
    rewrite (Rabs_right (w + w')), (Rabs_right 4), (Rabs_right f) by lra. fold (w - w').
    assert (Rabs (w - w') * (w + w') <= D * (63 / 10 * L)) by (apply Rmult_le_compat; try apply Rabs_pos; lra).
    assert (4 * f * Rabs e <= 4 * L * D) by (apply Rmult_le_compat; try apply Rabs_pos; lra).
    assert (0 <= D * L) by (apply Rmult_le_pos; lra). lra.
  Qed.
  Theorem met_bowl : forall f, lo <= f <= L -> either (fl_bowl_hits rnd f o' d') t ->
    Rabs (off_axis k q * off_axis k q - 4 * f * vdot q k) <= 32768 * u * ((8 * L + climb f d') * (8 * L + climb f d')) + 12 * (D * L).
  Proof.
    intros f F H. destruct (lo_dir rnd lo u eta CL RW a b rho P W M X A B RHO PP NP IV o d d' t L WR ID) as (_ & D2 & _ & _ & DZ & LL).
    assert (F8 : lo <= f <= 8 * L) by lra. apply carried; [lra|].
    exact (bowl_on rnd lo u eta CL RW X f o d o' d' t (8 * L) IO ID H (seen_reach rnd lo a b rho P W M X A B RHO PP NP IV o d o' t L WR IO) F8 (seen_entries lo u eta CL a b rho P W M X A B RHO PP NP IV o d t L WR) D2 DZ).
  Qed.
  (** rays along the axis, up to the quadratic term the code takes for 0 *)
  Lemma axial : forall f, fl_bowl_line rnd f o' d' t -> 0 <= from_axis d' <= 2 / 100000000 /\ lo <= Rabs (vz d').
  Proof.
    intros f (x & _ & _ & _ & _ & H & _ & _ & CZ & _). pose proof (U01 lo u eta CL) as (U0 & U1). pose proof (eta_lo lo u eta CL) as ((E0 & _) & _).
    apply isclose0_true in CZ. unfold atol in CZ. pose proof (rdot3 rnd u eta U0 E0 RW U1 _ _ H ltac:(cbn; lia)) as Q.
    assert (AS : asum (pairs2 d' d') = from_axis d' /\ rsum (pairs2 d' d') = from_axis d').
    { unfold asum, rsum, pairs2, from_axis. cbn. rewrite (Rabs_right (vx d' * vx d')), (Rabs_right (vy d' * vy d')) by nra. split; ring. }
    destruct AS as (E1 & E2). rewrite E1, E2 in Q.
    assert (EE : eta <= / 1000000000000). { destruct CL as ((L0 & L1) & _ & _ & E4). pose proof (lo4 lo u eta CL) as (K1 & K2 & K3 & K4 & K5). assert (lo ^ 4 <= / 1000000) by (simpl; nra). assert (0 <= lo ^ 4) by (apply pow_le; lra). assert (u * lo ^ 4 <= / 1000000 * / 1000000) by (apply Rmult_le_compat; lra). lra. }
    assert (F0 : 0 <= from_axis d') by (unfold from_axis; nra).
    assert (u * from_axis d' <= / 1000000 * from_axis d') by (apply Rmult_le_compat_r; lra).
    apply abs_out in CZ. apply abs_out in Q. assert (F1 : from_axis d' <= 2 / 100000000) by lra.
    split; [lra|]. pose proof (seen_direction rnd lo u eta CL RW a b rho P W M X A B RHO PP NP IV o d d' t L WR ID) as (DD & _).
    unfold from_centre in DD. unfold from_axis in *. destruct CL as ((L0 & L1) & _). unfold Rabs. destruct Rcase_abs; nra.
  Qed.
  Theorem met_bowl_line : forall f, lo <= f <= L -> fl_bowl_line rnd f o' d' t ->
    Rabs (off_axis k q * off_axis k q - 4 * f * vdot q k) <= (16384 * u + / 10000000) * (L * L) + 12 * (D * L).
  Proof.
    intros f F H. destruct (lo_dir rnd lo u eta CL RW a b rho P W M X A B RHO PP NP IV o d d' t L WR ID) as (_ & D2 & _ & _ & DZ & LL).
    destruct (axial f H) as (AX & AZ). assert (F8 : lo <= f <= 8 * L) by lra. apply carried; [lra|].
    eapply Rle_trans; [exact (bowl_line_on rnd lo u eta CL UP RW X f o d o' d' t (8 * L) IO ID H (seen_reach rnd lo a b rho P W M X A B RHO PP NP IV o d o' t L WR IO) F8 (seen_entries lo u eta CL a b rho P W M X A B RHO PP NP IV o d t L WR) D2 (conj AZ DZ))|].
    destruct WR as (_ & _ & (N1 & N2) & _ & TD & _). assert (T2 : Rabs t <= 2 * L). { pose proof (Rabs_pos t). assert (Rabs t * / 2 <= Rabs t * vnorm d) by (apply Rmult_le_compat_l; lra). lra. }
    assert (TT : t * t <= 4 * (L * L)). { pose proof (abs_out _ _ T2). assert (0 <= (2 * L - t) * (2 * L + t)) by (apply Rmult_le_pos; lra). lra. }
    assert (from_axis d' * (t * t) <= 2 / 100000000 * (4 * (L * L))) by (apply Rmult_le_compat; try lra; nra). assert (0 <= L * L) by nra. lra.
  Qed.
End Hits.

Section History.
  Variables (rnd fsin fcos : R -> R) (lo u eta delta A : R).
  Hypothesis CL : clear lo u eta.
  Hypothesis UP : 0 < u.
  Hypothesis RW : rounds_within u eta rnd.
  Hypothesis LN : leaves_numbers rnd.
  Hypothesis D0 : 0 <= delta.
  Hypothesis TW : trig_within delta rnd fsin fcos.
  Hypothesis A1 : 1 <= A.
  Variables (os : list motion) (st : fl_object) (m : mat).
  Hypothesis G : Forall (gentle rnd A) os.
  Hypothesis H : fl_history rnd fsin fcos os (Some st).
  Hypothesis C : composed os = Some m.
  Let e := drift (per_movement u delta A) (length os).
  Hypothesis HE : e <= / 200.
  Variable P : R.
  Hypothesis PE : 16 * eta <= u * P.
  Hypothesis P0 : 0 <= P.
  Hypothesis SW : stays_within P os.
  Variables (rho L : R) (X : mat) (o d o' d' : v4) (t : R).
  Hypothesis RHO : 0 <= rho <= / 100.
  Hypothesis IV : inverts rho P (fl_world st) X.
  Hypothesis WR : within_reach lo L P o d t.
  Hypothesis IO : fl_image rnd X o o'.
  Hypothesis ID : fl_image rnd X d d'.
  Let q := vsub (fl_move rnd o d t) (mapply m (point 0 0 0)).
  Let k := mapply m (vector 0 0 1).
  Lemma k_unit : vdot k k = 1.
  Proof. unfold k. rewrite (polar m (gentle_iso rnd A os m G C)) by reflexivity. unfold vdot, vector. cbn. ring. Qed.
  Lemma hit_bowl : forall f, lo <= f <= L -> either (fl_bowl_hits rnd f o' d') t ->
    near_bowl k f q (8192 * u * ((8 * L + climb f d') * (8 * L + climb f d')) / f + 3 * (4 * rho + 9 * e) * L * (L / f)).
  Proof.
    pose proof (e_nonneg lo u eta delta A CL D0 A1 os) as E0. fold e in E0. pose proof (placed_near rnd fsin fcos lo u eta delta A CL RW LN D0 TW A1 os st m G H C HE P PE SW) as NP. fold e in NP.
    intros f F HT. assert (F0 : 0 < f) by (destruct CL as ((L0 & _) & _); lra). apply bowl_near; [exact k_unit|exact F0|].
    pose proof (met_bowl rnd lo u eta CL RW LN (2 * e) e rho P (fl_world st) m X ltac:(lra) ltac:(lra) RHO P0 NP IV o d o' d' t L WR IO ID (polar m (gentle_iso rnd A os m G C)) f F HT) as Q.
    fold q in Q. fold k in Q. eapply Rle_trans; [exact Q|]. right. field. lra.
  Qed.
  Lemma hit_bowl_line : forall f, lo <= f <= L -> fl_bowl_line rnd f o' d' t ->
    near_bowl k f q ((4096 * u + / 40000000 + 3 * (4 * rho + 9 * e)) * L * (L / f)).
  Proof.
    pose proof (e_nonneg lo u eta delta A CL D0 A1 os) as E0. fold e in E0. pose proof (placed_near rnd fsin fcos lo u eta delta A CL RW LN D0 TW A1 os st m G H C HE P PE SW) as NP. fold e in NP.
    intros f F HT. assert (F0 : 0 < f) by (destruct CL as ((L0 & _) & _); lra). apply bowl_near; [exact k_unit|exact F0|].
    pose proof (met_bowl_line rnd lo u eta CL UP RW LN (2 * e) e rho P (fl_world st) m X ltac:(lra) ltac:(lra) RHO P0 NP IV o d o' d' t L WR IO ID (polar m (gentle_iso rnd A os m G C)) f F HT) as Q.
    fold q in Q. fold k in Q. eapply Rle_trans; [exact Q|]. right. field. lra.
  Qed.
End History.
