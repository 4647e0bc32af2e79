(** * FlSeenHist: computed hits on objects after a history of movements *)
From Coq Require Import Reals List Bool ZArith Lra Lia Psatz.
Import ListNotations.
From Flocq Require Import Core.
From Verif Require Import XR XRFacts Lin LinFacts World SpecWorld WorldFacts3 Fl FlHits SpecFl FlFacts FlBinary FlWorld SpecFlWorld FlWorldProps FlWorldMoves FlWorldExamples SpecFlHits FlHitsBinary SpecFlSeen FlSeenFacts FlSeenProps.
Open Scope R_scope.

Lemma polar : forall m, isometry m -> forall v w, vw v = 0 -> vw w = 0 -> vdot (mapply m v) (mapply m w) = vdot v w.
Proof.
  intros m (_ & N & _) v w V W. assert (S : vw (vadd v w) = 0) by (destruct v, w; cbn in *; lra).
  pose proof (N v V) as NV. pose proof (N w W) as NW. pose proof (N _ S) as NS. rewrite mapply_add in NS.
  assert (E : forall x y, vdot (vadd x y) (vadd x y) = vdot x x + 2 * vdot x y + vdot y y) by (intros [? ? ? ?] [? ? ? ?]; vs). rewrite !E in NS. lra.
Qed.
Lemma gentle_no_matrix : forall rnd A os, Forall (gentle rnd A) os -> Forall no_matrix os.
Proof. intros rnd A os H. eapply Forall_impl; [|exact H]. intros [ | | | | | ] G; cbn in *; tauto. Qed.
Lemma drift_pos : forall c n, 0 <= c -> 0 <= drift c n.
Proof. intros c n C. unfold drift. pose proof (pow_R1_Rle (1 + c) n ltac:(lra)). lra. Qed.

Section History.
  Variables (rnd fsin fcos : R -> R) (lo u eta delta A : R).
  Hypothesis CL : clear lo u eta.
  Hypothesis RW : rounds_within u eta rnd.
  Hypothesis LN : leaves_numbers rnd.
  Hypothesis D0 : 0 <= delta.
  Hypothesis TW : trig_within delta rnd fsin fcos.
  Hypothesis A1 : 1 <= A.
  Variables (os : list motion) (st : fl_object) (m : mat).
  Hypothesis G : Forall (gentle rnd A) os.
  Hypothesis H : fl_history rnd fsin fcos os (Some st).
  Hypothesis C : composed os = Some m.
  Let e := drift (per_movement u delta A) (length os).
  Hypothesis HE : e <= / 200.
  Variable P : R.
  Hypothesis PE : 16 * eta <= u * P.
  Hypothesis P0 : 0 <= P.
  Hypothesis SW : stays_within P os.

  Lemma e_nonneg : 0 <= e.
  Proof. apply drift_pos. unfold per_movement. destruct CL as (_ & (U0 & _) & _). assert (0 <= u * A) by (apply Rmult_le_pos; lra). lra. Qed.
  Lemma eta_million : 0 <= eta <= u * / 1000000.
  Proof.
    destruct CL as ((L0 & L1) & (U0 & U1) & E0 & E1). split; auto. eapply Rle_trans; [exact E1|]. apply Rmult_le_compat_l; auto. simpl. assert (lo * lo <= / 1000000) by nra. assert (0 <= lo * lo) by nra. nra.
  Qed.
  Lemma placed_near : near_placement (2 * e) e P (fl_world st) m.
  Proof.
    destruct CL as (_ & U & _). destruct (objects_drift rnd fsin fcos u eta delta A U eta_million RW LN D0 TW A1 os (Some st) G H ltac:(fold e; lra)) as (st' & m' & E & C' & B & _ & V & R3).
    injection E as <-. rewrite C in C'. injection C' as <-. fold e in B, V. pose proof (gentle_iso rnd A os m G C) as IM.
    destruct (history_sound rnd fsin fcos LN os _ H (gentle_no_matrix _ _ _ G) st eq_refl) as (_ & PO).
    assert (WO : mapply (fl_world st) (point 0 0 0) = fl_position st) by (rewrite PO; apply v4_eq; unfold mapply, vdot, point, mtrans; cbn [row0 row1 row2 row3 vx vy vz vw]; ring).
    split; [exact R3|]. split; [exact (proj1 IM)|]. split; [intros v Z; apply iso_norm; auto|]. split; [exact V|]. split; [rewrite WO; apply B; auto|].
    apply (SW os [] m); [symmetry; apply app_nil_r|exact C].
  Qed.
  Variables (rho L : R) (X : mat) (o d o' d' : v4) (t : R).
  Hypothesis RHO : 0 <= rho <= / 100.
  Hypothesis IV : inverts rho P (fl_world st) X.
  Hypothesis WR : within_reach lo L P o d t.
  Hypothesis IO : fl_image rnd X o o'.
  Hypothesis ID : fl_image rnd X d d'.
  Let q := vsub (fl_move rnd o d t) (mapply m (point 0 0 0)).
  Lemma hit_sphere : forall r, 0 < r <= L -> either (fl_sphere_hits rnd r o' d') t -> Rabs (vnorm q - r) <= 524288 * u * L * (L / r) + (4 * rho + 9 * e) * L.
  Proof.
    pose proof e_nonneg as E0. intros r R0 HT. replace (4 * rho + 9 * e) with (4 * rho + 4 * (2 * e) + e) by ring.
    apply (met_sphere rnd lo u eta CL RW LN (2 * e) e rho P (fl_world st) m X ltac:(lra) ltac:(lra) RHO P0 placed_near IV o d o' d' t L WR IO ID (polar m (gentle_iso rnd A os m G C)) r R0 HT).
  Qed.
  Lemma hit_side : forall r, 0 < r <= L -> either (fl_side_hits rnd r o' d') t -> Rabs (off_axis (mapply m (vector 0 0 1)) q - r) <= 524288 * u * L * (L / r) + (4 * rho + 9 * e) * L.
  Proof.
    pose proof e_nonneg as E0. intros r R0 HT. replace (4 * rho + 9 * e) with (4 * rho + 4 * (2 * e) + e) by ring.
    apply (met_side rnd lo u eta CL RW LN (2 * e) e rho P (fl_world st) m X ltac:(lra) ltac:(lra) RHO P0 placed_near IV o d o' d' t L WR IO ID (polar m (gentle_iso rnd A os m G C)) r R0 HT).
  Qed.
  Lemma hit_face : forall k f h, In (k, f) axes -> Rabs h <= L -> fl_face_hit rnd h (f o') (f d') t -> Rabs (vdot q (mapply m k) - h) <= 256 * u * L + (4 * rho + 9 * e) * L.
  Proof.
    pose proof e_nonneg as E0. intros k f h I HL HT. replace (4 * rho + 9 * e) with (4 * rho + 4 * (2 * e) + e) by ring.
    apply (met_face rnd lo u eta CL RW LN (2 * e) e rho P (fl_world st) m X ltac:(lra) ltac:(lra) RHO P0 placed_near IV o d o' d' t L WR IO ID (polar m (gentle_iso rnd A os m G C)) k f h I HL HT).
  Qed.
End History.

(** ** An object moved by (0, 0, 5) and met from (0, 0, 2) *)
Definition up5 : list motion := [Move 0 0 5].
Lemma up5_gentle : Forall (gentle binary64 7) up5 /\ Forall (is_move binary64) up5.
Proof. unfold up5. split; constructor; auto; cbn [gentle is_move]; repeat split; apply int_number; reflexivity. Qed.
Lemma up5_history : exists st, fl_history binary64 sin64 cos64 up5 (Some st).
Proof.
  pose proof u64_small. apply (histories_exist binary64 sin64 cos64 u64 eta64 (4 * u64) 7 u64_small eta64_small binary64_rounds leaves64 ltac:(lra) trig64 ltac:(lra)); [exact (proj1 up5_gentle)|].
  apply drift64. cbn. lia.
Qed.
Lemma up5_composed : composed up5 = Some (M4 (V4 1 0 0 0) (V4 0 1 0 0) (V4 0 0 1 5) (V4 0 0 0 1)).
Proof. cbn. f_equal. unfold mmul. vsimp. unfold mid. cbn. repeat f_equal; ring. Qed.
Lemma up5_within : stays_within 5 up5.
Proof.
  intros before after m E C. assert (K : m = mid \/ m = M4 (V4 1 0 0 0) (V4 0 1 0 0) (V4 0 0 1 5) (V4 0 0 0 1)).
  { destruct before as [|x [|y before]]; unfold up5 in E.
    - cbn in C. injection C as <-. auto.
    - cbn in E. injection E as <- _. right. pose proof up5_composed as U. unfold up5 in U. rewrite U in C. injection C as <-. reflexivity.
    - discriminate. }
  destruct K as [-> | ->]; unfold vnorm; (apply Rle_trans with (sqrt (5 * 5)); [apply sqrt_le_1_alt; unfold mapply, vdot, vsub, vadd, vopp, vscale, point, mid; cbn [row0 row1 row2 row3 vx vy vz vw]; lra|rewrite sqrt_square; lra]).
Qed.
Lemma up5_inverse : forall st, fl_history binary64 sin64 cos64 up5 (Some st) -> inverts 0 5 (fl_world st) moved.
Proof.
  intros st H. destruct (moves_only binary64 sin64 cos64 leaves64 up5 _ H (proj2 up5_gentle) st eq_refl) as (P & V & S & PO).
  assert (E : forall x, vw x = 1 -> mapply (fl_world st) x = vadd (fl_position st) (vsub x (point 0 0 0))).
  { intros x XW. assert (Z : vw (vsub x (point 0 0 0)) = 0) by (rewrite vsub_w, XW; cbn; ring). rewrite (split_point x) at 1. rewrite mapply_add, (V _ Z). f_equal.
    rewrite PO. apply v4_eq; unfold mapply, vdot, point, mtrans; cbn [row0 row1 row2 row3 vx vy vz vw]; ring. }
  assert (P5 : fl_position st = point 0 0 5).
  { rewrite P. unfold up5. cbn [tally point vx vy vz]. rewrite !Rplus_0_l, !int_number by reflexivity. reflexivity. }
  split; [reflexivity|]. assert (Z : vnorm (V4 0 0 0 0) = 0) by (unfold vnorm, vdot; cbn; replace (_ + _ + _ + _) with 0 by ring; apply sqrt_0). split.
  - intros v W. rewrite V by (rewrite affine_w; [exact W|reflexivity]). replace (vsub (mapply moved v) v) with (V4 0 0 0 0); [rewrite Z; lra|].
    destruct v as [x y z w]. cbn in W. subst w. apply v4_eq; unfold moved, ivec, mapply, vdot, vsub, vadd, vopp, vscale; cbn [row0 row1 row2 row3 vx vy vz vw]; ring.
  - rewrite E by (rewrite affine_w; reflexivity). rewrite P5. replace (vsub _ _) with (V4 0 0 0 0); [rewrite Z; lra|].
    apply v4_eq; unfold moved, ivec, mapply, vdot, vsub, vadd, vopp, vscale, point; cbn [row0 row1 row2 row3 vx vy vz vw]; ring.
Qed.
Lemma up5_reach : within_reach lo64 10 5 (ivec 0 0 2 1) (ivec 0 0 1 0) 2.
Proof.
  pose proof lo64_small as S. pose proof lo64_sqr as (_ & K & _). destruct clear64 as ((LP & _) & _).
  assert (N1 : vnorm (ivec 0 0 1 0) = 1) by (unfold vnorm, ivec, vdot; cbn [vx vy vz vw]; replace (_ + _ + _ + _) with 1 by ring; apply sqrt_1).
  unfold within_reach. rewrite N1. repeat split; try lra.
  - unfold from_origin, vnorm. apply Rle_trans with (sqrt (2 * 2)); [apply sqrt_le_1_alt; unfold ivec, mapply, vdot, vsub, vadd, vopp, vscale, point, mid; cbn [row0 row1 row2 row3 vx vy vz vw]; lra|rewrite sqrt_square; lra].
  - rewrite Rabs_right; lra.
Qed.
