(** * MediumExamples2: traces through the slab of MediumExamples *)
From Coq Require Import Reals List Bool ZArith Lra Lia Psatz.
Import ListNotations.
From Verif Require Import XR XRFacts Arr Lin LinFacts SpecOptics Prim Csg Surf SpecGeom SpecTree SpecNormal CsgProps SurfFacts TreeFacts World SpecWorld Tracer SpecTrace
  TraceFacts5 TraceFacts7 TraceProps SpecCrossing Crossing CrossingProps SpecMedium NormalSides MediumFacts MediumProps PrismExamples2 PrismExamples3 MediumExamples.
Open Scope R_scope.

(** Where a ray up (k = 1) or down (k = -1) enters and leaves the slab *)
Definition z_in (k : R) : R := (3 - k) / 2.
Definition z_out (k : R) : R := (3 + k) / 2.
Lemma up_down : forall k, k = 1 \/ k = -1 -> k * k = 1 /\ Rabs (k * (4 / 5)) = 4 / 5 /\ Rabs (k * (3 / 5)) = 3 / 5.
Proof. intros k [-> | ->]; (split; [ring|]); split; unfold Rabs; destruct Rcase_abs; lra. Qed.
Lemma zs : forall k c g, k = 1 \/ k = -1 -> 0 < g -> near_z c (k * g) = (z_in k - c) * k / g /\ far_z c (k * g) = (z_out k - c) * k / g.
Proof.
  intros k c g K G. unfold near_z, far_z, z_in, z_out. assert (0 < / g) by (apply Rinv_0_lt_compat; auto).
  destruct K as [-> | ->].
  - replace ((1 - c) / (1 * g)) with ((1 - c) * / g) by (field; lra). replace ((2 - c) / (1 * g)) with ((2 - c) * / g) by (field; lra).
    rewrite Rmin_left, Rmax_right by nra. split; field; lra.
  - replace ((1 - c) / (-1 * g)) with ((c - 1) * / g) by (field; lra). replace ((2 - c) / (-1 * g)) with ((c - 2) * / g) by (field; lra).
    rewrite Rmin_right, Rmax_left by nra. split; field; lra.
Qed.
(** The three legs of a ray through the slab *)
Definition leg_in (a c k : R) : ray := flat a c (k * (4 / 5)) (k * (3 / 5)).
Definition leg_mid (p k : R) : ray := flat (p + ray_offset_value * (k * (3 / 5))) (z_in k + ray_offset_value * (k * (4 / 5))) (k * (3 / 5)) (k * (4 / 5)).
Definition leg_out (p k : R) : ray := flat (p + ray_offset_value * (k * (4 / 5))) (z_out k + ray_offset_value * (k * (3 / 5))) (k * (4 / 5)) (k * (3 / 5)).
Definition through (a c p k : R) : Prop :=
  (k = 1 \/ k = -1) /\ 0 < (z_in k - c) * k /\ p = a + (z_in k - c) / (3 / 5) * (4 / 5) /\ -3 < p < 3 /\ a * a + c * c < 81.
Definition slab_rows (g1 g2 : surf) (i : nat) (a c p k : R) (rows : list row) : Prop :=
  exists w0 w1 w2, rows = [w0; w1; w2] /\ way w0 = leg_in a c k /\ way w1 = leg_mid p k /\ way w2 = leg_out (p + k * (3 / 4)) k /\
  row_idx w0 = 1 /\ row_idx w1 = 4 / 3 /\ row_idx w2 = 1 /\ row_wl w0 = 1 /\ row_wl w1 = 1 /\ row_wl w2 = 1 /\
  here (row_end w0) = V4 p 0 (z_in k) 1 /\ here (row_end w1) = V4 (p + k * (3 / 4)) 0 (z_out k) 1 /\
  row_surf w0 = s_id g1 /\ row_surf w1 = s_id g1 /\ row_surf w2 = s_id g2.

Section Path.
  Variables (asort : list xr -> list nat) (g1 g2 : surf) (b1 b2 : box).
  Hypotheses (AS : argsort_ok asort) (L1 : leaf_as g1 slab water) (L2 : leaf_as g2 (PSphere 9) Absorber)
    (B1 : boxes_current (Leaf g1 b1)) (B2 : boxes_current (Leaf g2 b2)).
  Let comps := [Leaf g1 b1; Leaf g2 b2].
  Variables (a c p k : R).
  Hypothesis TH : through a c p k.
  Lemma offset_small : 0 < ray_offset_value < 1 / 100.
  Proof. unfold ray_offset_value. lra. Qed.
  Lemma in_facts : seen comps (leg_in a c k) /\ first_hit asort comps (leg_in a c k) ((z_in k - c) * k / (3 / 5)) (s_id g1).
  Proof.
    destruct TH as (K & PO & EP & RG & IN). destruct (up_down k K) as (K2 & A4 & A3). destruct (zs k c (3 / 5) K ltac:(lra)) as (NE & FA).
    assert (UN : k * (4 / 5) * (k * (4 / 5)) + k * (3 / 5) * (k * (3 / 5)) = 1) by (replace (k * (4 / 5) * (k * (4 / 5)) + k * (3 / 5) * (k * (3 / 5))) with (k * k) by field; exact K2).
    assert (X1 : -5 < a + (1 - c) / (k * (3 / 5)) * (k * (4 / 5)) < 5) by (unfold z_in in EP; destruct K as [-> | ->]; [replace ((1 - c) / (1 * (3 / 5)) * (1 * (4 / 5))) with ((1 - c) * (4 / 3)) by field|replace ((1 - c) / (-1 * (3 / 5)) * (-1 * (4 / 5))) with ((1 - c) * (4 / 3)) by field]; lra).
    assert (X2 : -5 < a + (2 - c) / (k * (3 / 5)) * (k * (4 / 5)) < 5) by (unfold z_in in EP; destruct K as [-> | ->]; [replace ((2 - c) / (1 * (3 / 5)) * (1 * (4 / 5))) with ((2 - c) * (4 / 3)) by field|replace ((2 - c) / (-1 * (3 / 5)) * (-1 * (4 / 5))) with ((2 - c) * (4 / 3)) by field]; lra).
    split; [apply (flat_seen g1 g2 b1 b2 L1 L2 B1 B2 a c _ _ UN); auto; lra|]. rewrite <- NE.
    apply (flat_near asort g1 g2 b1 b2 AS L1 L2 B1 B2 a c _ _ UN); auto; try lra.
  Qed.
  Lemma mid_facts : seen comps (leg_mid p k) /\ first_hit asort comps (leg_mid p k) (5 / 4 - ray_offset_value) (s_id g1).
  Proof.
    destruct TH as (K & PO & EP & RG & IN). destruct (up_down k K) as (K2 & A4 & A3). pose proof offset_small as OS. set (o := ray_offset_value) in *.
    destruct (zs k (z_in k + o * (k * (4 / 5))) (4 / 5) K ltac:(lra)) as (NE & FA).
    assert (UN : k * (3 / 5) * (k * (3 / 5)) + k * (4 / 5) * (k * (4 / 5)) = 1) by (replace (k * (3 / 5) * (k * (3 / 5)) + k * (4 / 5) * (k * (4 / 5))) with (k * k) by field; exact K2).
    assert (F5 : far_z (z_in k + o * (k * (4 / 5))) (k * (4 / 5)) = 5 / 4 - o) by (rewrite FA; unfold z_in, z_out; destruct K as [-> | ->]; field).
    assert (N5 : near_z (z_in k + o * (k * (4 / 5))) (k * (4 / 5)) = - o) by (rewrite NE; unfold z_in, z_out; destruct K as [-> | ->]; field).
    assert (X1 : -5 < p + o * (k * (3 / 5)) + (1 - (z_in k + o * (k * (4 / 5)))) / (k * (4 / 5)) * (k * (3 / 5)) < 5).
    { replace ((1 - (z_in k + o * (k * (4 / 5)))) / (k * (4 / 5)) * (k * (3 / 5))) with ((1 - (z_in k + o * (k * (4 / 5)))) * (3 / 4)) by (destruct K as [-> | ->]; field). unfold z_in. destruct K as [-> | ->]; lra. }
    assert (X2 : -5 < p + o * (k * (3 / 5)) + (2 - (z_in k + o * (k * (4 / 5)))) / (k * (4 / 5)) * (k * (3 / 5)) < 5).
    { replace ((2 - (z_in k + o * (k * (4 / 5)))) / (k * (4 / 5)) * (k * (3 / 5))) with ((2 - (z_in k + o * (k * (4 / 5)))) * (3 / 4)) by (destruct K as [-> | ->]; field). unfold z_in. destruct K as [-> | ->]; lra. }
    assert (IN' : (p + o * (k * (3 / 5))) * (p + o * (k * (3 / 5))) + (z_in k + o * (k * (4 / 5))) * (z_in k + o * (k * (4 / 5))) < 81).
    { assert (-4 < p + o * (k * (3 / 5)) < 4) by (destruct K as [-> | ->]; lra). assert (0 < z_in k + o * (k * (4 / 5)) < 3) by (unfold z_in; destruct K as [-> | ->]; lra). nra. }
    split; [apply (flat_seen g1 g2 b1 b2 L1 L2 B1 B2 _ _ _ _ UN); auto; lra|]. fold o. rewrite <- F5.
    apply (flat_far asort g1 g2 b1 b2 AS L1 L2 B1 B2 _ _ _ _ UN); auto; try lra. fold o. rewrite N5, F5. lra.
  Qed.
  Lemma out_facts : seen comps (leg_out (p + k * (3 / 4)) k) /\ exists q, first_hit asort comps (leg_out (p + k * (3 / 4)) k) q (s_id g2).
  Proof.
    destruct TH as (K & PO & EP & RG & IN). destruct (up_down k K) as (K2 & A4 & A3). pose proof offset_small as OS. unfold leg_out. set (o := ray_offset_value) in *.
    destruct (zs k (z_out k + o * (k * (3 / 5))) (3 / 5) K ltac:(lra)) as (NE & FA).
    assert (UN : k * (4 / 5) * (k * (4 / 5)) + k * (3 / 5) * (k * (3 / 5)) = 1) by (replace (k * (4 / 5) * (k * (4 / 5)) + k * (3 / 5) * (k * (3 / 5))) with (k * k) by field; exact K2).
    assert (F5 : far_z (z_out k + o * (k * (3 / 5))) (k * (3 / 5)) = - o) by (rewrite FA; unfold z_in, z_out; destruct K as [-> | ->]; field).
    assert (X1 : -5 < p + k * (3 / 4) + o * (k * (4 / 5)) + (1 - (z_out k + o * (k * (3 / 5)))) / (k * (3 / 5)) * (k * (4 / 5)) < 5).
    { replace ((1 - (z_out k + o * (k * (3 / 5)))) / (k * (3 / 5)) * (k * (4 / 5))) with ((1 - (z_out k + o * (k * (3 / 5)))) * (4 / 3)) by (destruct K as [-> | ->]; field). unfold z_out. destruct K as [-> | ->]; lra. }
    assert (X2 : -5 < p + k * (3 / 4) + o * (k * (4 / 5)) + (2 - (z_out k + o * (k * (3 / 5)))) / (k * (3 / 5)) * (k * (4 / 5)) < 5).
    { replace ((2 - (z_out k + o * (k * (3 / 5)))) / (k * (3 / 5)) * (k * (4 / 5))) with ((2 - (z_out k + o * (k * (3 / 5)))) * (4 / 3)) by (destruct K as [-> | ->]; field). unfold z_out. destruct K as [-> | ->]; lra. }
    assert (IN' : (p + k * (3 / 4) + o * (k * (4 / 5))) * (p + k * (3 / 4) + o * (k * (4 / 5))) + (z_out k + o * (k * (3 / 5))) * (z_out k + o * (k * (3 / 5))) < 81).
    { assert (-4 < p + k * (3 / 4) + o * (k * (4 / 5)) < 4) by (destruct K as [-> | ->]; lra). assert (0 < z_out k + o * (k * (3 / 5)) < 3) by (unfold z_out; destruct K as [-> | ->]; lra). nra. }
    split; [apply (flat_seen g1 g2 b1 b2 L1 L2 B1 B2 _ _ _ _ UN); auto; lra|]. eexists.
    apply (flat_last asort g1 g2 b1 b2 AS L1 L2 B1 B2 _ _ _ _ UN); auto; try lra.
  Qed.

  Variables (gen : loc -> nat -> list col) (h : heap) (t t' : tracer) (fuel i : nat).
  Hypotheses (PRO : proper gen h t comps) (LIM : t_limit t = 10%Z) (TR : trace asort h gen fuel t = TOk t')
    (SRC : nth_error (source_rays gen t) i = Some (Col (leg_in a c k) 0 100 1 1 0)).
  Lemma slab_path : slab_rows g1 g2 i a c p k (rows_with_id i (f_rows (get_results t'))).
  Proof.
    destruct TH as (K & PO & EP & RG & IN). destruct (up_down k K) as (K2 & A4 & A3).
    destruct in_facts as (_ & H0), mid_facts as (_ & H1), out_facts as (_ & q2 & H2).
    pose proof PRO as ((SHP & _ & ND) & _ & _ & _ & _). change (flat_map surface_ids comps) with [g1; g2] in ND.
    assert (NE : rows_with_id i (f_rows (get_results t')) <> []).
    { intro X. apply (no_row asort AS _ _ _ _ _ comps TR SHP i _ SRC) in X. destruct X as [X|X].
      - unfold stopped, leg_in, flat, vnorm in X. cbn [c_ray direction] in X. unfold vdot in X; cbn [vx vy vz vw] in X.
        replace (k * (4 / 5) * (k * (4 / 5)) + 0 * 0 + k * (3 / 5) * (k * (3 / 5)) + 0 * 0) with (k * k) in X by field. rewrite K2, sqrt_1 in X. unfold atol in X. lra.
      - destruct H0 as (x & y & R & _). apply (X _ _ _ _ R). }
    destruct (rows_with_id i (f_rows (get_results t'))) as [|w0 rs] eqn:ER; [contradiction|]. clear NE.
    assert (J0 : nth_error (rows_with_id i (f_rows (get_results t'))) 0 = Some w0) by (rewrite ER; reflexivity).
    destruct (proper_bounces asort AS _ _ _ _ _ _ PRO TR i _ eq_refl) as (BF & BB & _). destruct (BF w0 J0) as (c0 & C0 & FR).
    rewrite SRC in C0. injection C0 as <-. destruct FR as (S0 & D0 & X0 & W0 & G0 & _). cbn [c_ray c_idx c_wl c_gen leg_in flat origin direction] in *.
    destruct (proper_legs asort AS _ _ _ _ _ _ PRO TR) as (LG & _).
    assert (LG0 : leg asort comps w0) by (apply LG, (in_rows_with_id i _ w0); apply nth_error_In in J0; exact J0).
    assert (R0 : way w0 = leg_in a c k) by (unfold way; rewrite S0, D0, here_trim by reflexivity; reflexivity).
    destruct (leg_end _ _ _ _ _ _ LG0 R0 H0) as (RS0 & E0).
    assert (EW0 : here (row_end w0) = V4 p 0 (z_in k) 1). { rewrite E0. unfold leg_in. rewrite flat_at, EP. f_equal; destruct K as [-> | ->]; field. }
    assert (I1 : In g1 [g1; g2]) by (left; reflexivity).
    assert (NX0 : forall w', follows w0 w' -> SpecTrace.bounce [g1; g2] w0 w' -> unit (row_tilt w') -> vw (row_tilt w') = 0 ->
       way w' = leg_mid p k /\ row_idx w' = 4 / 3).
    { intros w' FO BO U D. assert (Q : row_idx w' = 4 / 3 /\ 4 / 3 * vx (row_tilt w') = 1 * (k * (4 / 5)) /\ vy (row_tilt w') = 0 /\ 0 < k * (3 / 5) * vz (row_tilt w')).
      { rewrite <- X0. apply (slab_turn g1 g2 L1 ND w0 w' p (z_in k) (- k)); auto; try (rewrite X0); try lra.
        - unfold z_in. destruct K as [-> | ->]; [right|left]; split; lra.
        - destruct (Rlt_dec 0 (k * (3 / 5) * - k)); [nra|reflexivity]. }
      destruct Q as (Q1 & Q2 & Q3 & Q4). split; auto. unfold way, leg_mid, flat.
      assert (TI : row_tilt w' = V4 (k * (3 / 5)) 0 (k * (4 / 5)) 0).
      { destruct (row_tilt w') as [x y z v]. unfold unit, vdot in U. cbn [vx vy vz vw] in *. subst y v. assert (x = k * (3 / 5)) by lra. subst x.
        assert (z * z = 16 / 25) by nra. f_equal. destruct K as [-> | ->]; nra. }
      rewrite TI. f_equal. destruct FO as (-> & _). rewrite TI. clear - EW0. destruct (row_end w0) as [x y z w]. unfold here, vset_w in EW0. cbn [vx vy vz] in EW0. injection EW0 as -> -> ->.
      unfold here, vset_w, vadd, vscale; cbn [vx vy vz vw]. f_equal; ring. }
    destruct (advance asort AS _ _ _ _ _ _ i 0%nat w0 g1 PRO TR J0) as (w1 & J1 & FO1 & BO1 & LG1 & WL1); auto.
    { rewrite G0, LIM. discriminate. }
    { destruct L1 as (_ & _ & -> & _). discriminate. }
    { intros w' FO BO U D. destruct (NX0 w' FO BO U D) as (WE & _). fold (way w'). rewrite WE. eauto. }
    destruct (NX0 w1 FO1 BO1) as (R1 & X1); [apply LG1|apply LG1|].
    destruct (leg_end _ _ _ _ _ _ LG1 R1 H1) as (RS1 & E1).
    assert (EW1 : here (row_end w1) = V4 (p + k * (3 / 4)) 0 (z_out k) 1). { rewrite E1. unfold leg_mid. rewrite flat_at. unfold z_in, z_out. f_equal; destruct K as [-> | ->]; field. }
    assert (D1 : row_tilt w1 = V4 (k * (3 / 5)) 0 (k * (4 / 5)) 0) by (unfold way, leg_mid, flat in R1; congruence).
    assert (NX1 : forall w', follows w1 w' -> SpecTrace.bounce [g1; g2] w1 w' -> unit (row_tilt w') -> vw (row_tilt w') = 0 ->
       way w' = leg_out (p + k * (3 / 4)) k /\ row_idx w' = 1).
    { intros w' FO BO U D. assert (Q : row_idx w' = 1 /\ 1 * vx (row_tilt w') = 4 / 3 * (k * (3 / 5)) /\ vy (row_tilt w') = 0 /\ 0 < k * (4 / 5) * vz (row_tilt w')).
      { rewrite <- X1. apply (slab_turn g1 g2 L1 ND w1 w' (p + k * (3 / 4)) (z_out k) k); auto; try (rewrite X1); try lra.
        - unfold z_out. destruct K as [-> | ->]; [left|right]; split; lra.
        - destruct (Rlt_dec 0 (k * (4 / 5) * k)); [reflexivity|nra]. }
      destruct Q as (Q1 & Q2 & Q3 & Q4). split; auto. unfold way, leg_out, flat.
      assert (TI : row_tilt w' = V4 (k * (4 / 5)) 0 (k * (3 / 5)) 0).
      { destruct (row_tilt w') as [x y z v]. unfold unit, vdot in U. cbn [vx vy vz vw] in *. subst y v. assert (x = k * (4 / 5)) by lra. subst x.
        assert (z * z = 9 / 25) by nra. f_equal. destruct K as [-> | ->]; nra. }
      rewrite TI. f_equal. destruct FO as (-> & _). rewrite TI. clear - EW1. destruct (row_end w1) as [x y z w]. unfold here, vset_w in EW1. cbn [vx vy vz] in EW1. injection EW1 as -> -> ->.
      unfold here, vset_w, vadd, vscale; cbn [vx vy vz vw]. f_equal; ring. }
    destruct (advance asort AS _ _ _ _ _ _ i 1%nat w1 g1 PRO TR J1) as (w2 & J2 & FO2 & BO2 & LG2 & WL2); auto.
    { destruct FO1 as (_ & ->). rewrite G0, LIM. discriminate. }
    { destruct L1 as (_ & _ & -> & _). discriminate. }
    { intros w' FO BO U D. destruct (NX1 w' FO BO U D) as (WE & _). fold (way w'). rewrite WE. eauto. }
    destruct (NX1 w2 FO2 BO2) as (R2 & X2); [apply LG2|apply LG2|].
    destruct (leg_end _ _ _ _ _ _ LG2 R2 H2) as (RS2 & _).
    exists w0, w1, w2. split.
    - rewrite ER in J1, J2. destruct rs as [|v1 [|v2 [|v3 rs]]]; cbn in J1, J2; try discriminate; injection J1 as ->; injection J2 as ->; [reflexivity|].
      exfalso. destruct (BB 2%nat w2 v3) as (s & n & IS & ES & _ & _ & M); [rewrite ER; reflexivity|rewrite ER; reflexivity|].
      assert (s = g2) by (apply (same_surface [g1; g2]); auto; [right; left; reflexivity|congruence]). subst s. destruct L2 as (_ & _ & EM & _). rewrite EM in M. exact M.
    - repeat (split; [first [assumption|congruence]|]). congruence.
  Qed.
End Path.

Section Plain.
  Variables (g1 g2 : surf) (b1 b2 : box).
  Hypotheses (L1 : leaf_as g1 slab water) (L2 : leaf_as g2 (PSphere 9) Absorber) (ND : NoDup (map s_id [g1; g2])).
  Let comps := [Leaf g1 b1; Leaf g2 b2].
  Lemma slab_plain : forall w w' x z e f e' f', -4 < x < 4 -> z = 1 \/ z = 2 -> here (row_end w) = V4 x 0 z 1 -> row_surf w = s_id g1 ->
    row_tilt w = V4 e 0 f 0 -> f <> 0 -> row_tilt w' = V4 e' 0 f' 0 -> f' <> 0 -> -1 <= e' <= 1 -> -1 <= f' <= 1 -> plain comps w w'.
  Proof.
    intros w w' x z e f e' f' X Z H RS T NZ T' NZ' RE RF. unfold plain. cbv zeta. rewrite H, RS, T, T'. change (flat_map surface_ids comps) with [g1; g2].
    assert (OFF : 0 < ray_offset_value < 1 / 100) by (unfold ray_offset_value; lra).
    split; [|split; [|split]].
    - exists 1. split; [lra|]. intros g G NE. assert (g = g2) by (destruct G as [<- | [<- | []]]; congruence). subst g. left. intros y W Y. apply (in_ball g2 L2 y W).
      apply vnorm_part in Y. unfold vsub, vadd, vopp, vscale in Y. cbn [vx vy vz] in Y. destruct Y as (Y1 & Y2 & Y3). apply Rabs_def2 in Y1, Y2, Y3.
      assert (-5 <= vx y <= 5) by lra. assert (-1 <= vy y <= 1) by lra. assert (-3 <= vz y <= 3) by lra. nra.
    - intros g G EG _. assert (g = g1) by (apply (same_surface [g1; g2]); auto; left; reflexivity). subst g. rewrite (leaf_obj _ _ _ L1), mapply_mid. destruct L1 as (_ & EP & _). rewrite EP. cbn [smooth_at off_edges slab vx vy vz].
      rewrite !Rmin_left, !Rmax_right by lra. split.
      + right; right. split; [lra|]. split; [lra|]. split; [lra|exact Z].
      + assert (IC : forall v b, Rabs (v - b) > 1 / 2 -> Rabs b <= 5 -> off_band v b).
        { intros v b D B J. exfalso. unfold isclose in J. apply rleb_true in J. unfold atol, rtol in J. lra. }
        assert (ON : forall v, off_band v v) by (intros v _; reflexivity).
        repeat split; try (intro; lra); try (apply IC; unfold Rabs; repeat destruct Rcase_abs; lra); destruct Z as [-> | ->]; try (apply ON); apply IC; unfold Rabs; repeat destruct Rcase_abs; lra.
    - intros g n G EG NO. assert (g = g1) by (apply (same_surface [g1; g2]); auto; left; reflexivity). subst g.
      destruct Z as [-> | ->]; [rewrite (slab_normal g1 L1 x 1 (-1)) in NO by (auto; lra)|rewrite (slab_normal g1 L1 x 2 1) in NO by (auto; lra)]; injection NO as <-; unfold vdot; cbn [vx vy vz vw]; lra.
    - exists (1 / 10). split; [lra|]. intros s [<- | [<- | []]].
      + unfold undisturbed. rewrite (proj1 (ball_side g1 g2 b1 b2 L1 L2)). fold (flat x z e' f').
        assert (K : (z = 1 /\ 0 < f') \/ (z = 2 /\ f' < 0) \/ (z = 1 /\ f' < 0) \/ (z = 2 /\ 0 < f')) by (destruct Z as [-> | ->], (Rlt_dec 0 f'); [left|right; right; left|right; right; right|right; left]; split; auto; lra).
        destruct K as [(-> & F)|[(-> & F)|[(-> & F)|(-> & F)]]]; [left|left|right|right]; exists []; intros t B _; rewrite flat_at; cbn [inside]; rewrite (in_slab g1 L1) by reflexivity; cbn [vx vy vz]; try (split; [split; nra|split; [lra|split; nra]]); intros (_ & _ & V1 & V2); nra.
      + unfold undisturbed. rewrite (proj2 (ball_side g1 g2 b1 b2 L1 L2)). left. exists []. intros t B _. fold (flat x z e' f'). rewrite flat_at. cbn [inside]. rewrite (in_ball g2 L2) by reflexivity. cbn [vx vy vz].
        assert (-5 <= x + t * e' <= 5) by nra. assert (-3 <= z + t * f' <= 3) by (destruct Z as [-> | ->]; nra). nra.
  Qed.
  Lemma slab_start : forall a c e f wl, c < 1 \/ 2 < c -> -1 <= f <= 1 -> starts_in comps wl (flat a c e f) 1.
  Proof.
    intros a c e f wl C F. exists (Rmax (1 - c) (c - 2)). split; [destruct C; [apply Rlt_le_trans with (1 - c)|apply Rlt_le_trans with (c - 2)]; try lra; [apply Rmax_l|apply Rmax_r]|].
    intros t T. right. split; [|reflexivity]. intros s g I G. destruct (glass_only g1 g2 b1 b2 L1 L2 s g I G) as (-> & _). cbn [inside]. rewrite flat_at, (in_slab g1 L1) by reflexivity. cbn [vx vy vz].
    destruct C as [C|C]; [rewrite Rmax_left in T by lra|rewrite Rmax_right in T by lra]; nra.
  Qed.
End Plain.

(** A ray up through the slab, and one down along the same lines *)
Definition up_and_down : list col := [Col (leg_in 0 0 1) 0 100 1 1 0; Col (leg_in (41 / 12) 3 (-1)) 0 100 1 1 0].
Lemma up_passes : through 0 0 (4 / 3) 1.
Proof. unfold through, z_in. split; [auto|]. lra. Qed.
Lemma down_passes : through (41 / 12) 3 (25 / 12) (-1).
Proof. unfold through, z_in. split; [auto|]. lra. Qed.
Lemma slab_case : forall asort, argsort_ok asort -> exists h t comps g1 g2 t', proper (fun _ _ => up_and_down) h t comps /\ bench comps /\ t_limit t = 10%Z /\
  trace asort h (fun _ _ => up_and_down) 22 t = TOk t' /\ source_rays (fun _ _ => up_and_down) t = up_and_down /\
  (forall i c, nth_error up_and_down i = Some c -> starts_in comps (c_wl c) (c_ray c) (c_idx c)) /\
  (forall i, (i < 2)%nat -> let rows := rows_with_id i (f_rows (get_results t')) in
     (forall w, In w rows -> in_sight comps w) /\ (forall j w w', nth_error rows j = Some w -> nth_error rows (S j) = Some w' -> plain comps w w')) /\
  slab_rows g1 g2 0 0 0 (4 / 3) 1 (rows_with_id 0 (f_rows (get_results t'))) /\
  slab_rows g1 g2 1 (41 / 12) 3 (25 / 12) (-1) (rows_with_id 1 (f_rows (get_results t'))) /\
  (forall w, In w (rows_with_id 0 (f_rows (get_results t'))) -> row_surf w = s_id g2 -> let x := row_end w in vx x * vx x + vy x * vy x + vz x * vz x = 81).
Proof.
  intros asort AS.
  assert (RO : forall c, In c up_and_down -> ray_ok c /\ c_gen c = O).
  { assert (K : forall a c k, k = 1 \/ k = -1 -> ray_ok (Col (leg_in a c k) 0 100 1 1 0)).
    { intros a c k K. destruct (up_down k K) as (K2 & _). unfold ray_ok, leg_in, flat. cbn. do 2 (split; [reflexivity|]). split; [left|lra]. unfold unit, vdot. cbn.
      replace (k * (4 / 5) * (k * (4 / 5)) + 0 * 0 + k * (3 / 5) * (k * (3 / 5)) + 0 * 0) with (k * k) by field. exact K2. }
    intros c [<- | [<- | []]]; (split; [apply K|reflexivity]); auto. }
  destruct (two_scene asort AS slab water (PSphere 9) Absorber up_and_down) as (h & g1 & b1 & g2 & b2 & t & L1 & L2 & B1 & B2 & NW & PRO & SR & LIM); cbn [prim_ok capped optical slab water]; auto; try lra; try discriminate.
  { intros wl _. exists (4 / 3). split; [reflexivity|lra]. }
  set (comps := [Leaf g1 b1; Leaf g2 b2]) in *.
  destruct (proper_trace_ok asort AS _ _ _ _ 22 PRO) as (t' & T); [rewrite LIM; cbn; lia|].
  assert (P0 : slab_rows g1 g2 0 0 0 (4 / 3) 1 (rows_with_id 0 (f_rows (get_results t')))).
  { apply (slab_path asort g1 g2 b1 b2 AS L1 L2 B1 B2 _ _ _ _ up_passes (fun _ _ => up_and_down) h t t' 22); auto. rewrite SR. reflexivity. }
  assert (P1 : slab_rows g1 g2 1 (41 / 12) 3 (25 / 12) (-1) (rows_with_id 1 (f_rows (get_results t')))).
  { apply (slab_path asort g1 g2 b1 b2 AS L1 L2 B1 B2 _ _ _ _ down_passes (fun _ _ => up_and_down) h t t' 22); auto. rewrite SR. reflexivity. }
  exists h, t, comps, g1, g2, t'. split; [exact PRO|]. split; [apply (slab_bench g1 g2 b1 b2 L1 L2)|]. split; [exact LIM|]. split; [exact T|]. split; [exact SR|].
  pose proof PRO as ((_ & _ & ND) & _). change (flat_map surface_ids comps) with [g1; g2] in ND.
  assert (ALL : forall i a c p k, through a c p k -> slab_rows g1 g2 i a c p k (rows_with_id i (f_rows (get_results t'))) ->
    (forall w, In w (rows_with_id i (f_rows (get_results t'))) -> in_sight comps w) /\
    (forall j w w', nth_error (rows_with_id i (f_rows (get_results t'))) j = Some w -> nth_error (rows_with_id i (f_rows (get_results t'))) (S j) = Some w' -> plain comps w w')).
  { intros i a c p k TH (w0 & w1 & w2 & -> & R0 & R1 & R2 & _ & _ & _ & _ & _ & _ & E0 & E1 & S0 & S1 & S2).
    pose proof TH as (K & _ & _ & PR & _). split.
    - unfold in_sight. intros w [<- | [<- | [<- | []]]]; [rewrite R0|rewrite R1|rewrite R2].
      + apply (in_facts asort g1 g2 b1 b2 AS L1 L2 B1 B2 a c p k TH).
      + apply (mid_facts asort g1 g2 b1 b2 AS L1 L2 B1 B2 a c p k TH).
      + apply (out_facts asort g1 g2 b1 b2 AS L1 L2 B1 B2 a c p k TH).
    - assert (D0 : row_tilt w0 = V4 (k * (4 / 5)) 0 (k * (3 / 5)) 0) by (unfold way, leg_in, flat in R0; congruence).
      assert (D1 : row_tilt w1 = V4 (k * (3 / 5)) 0 (k * (4 / 5)) 0) by (unfold way, leg_mid, flat in R1; congruence).
      assert (D2 : row_tilt w2 = V4 (k * (4 / 5)) 0 (k * (3 / 5)) 0) by (unfold way, leg_out, flat in R2; congruence).
      intros [|[|[|j]]] w w' J J'; cbn in J, J'; try discriminate.
      + injection J as <-. injection J' as <-. apply (slab_plain g1 g2 b1 b2 L1 L2 ND w0 w1 p (z_in k) _ _ _ _ ltac:(lra)) with (3 := S0) (4 := D0) (6 := D1); auto; unfold z_in; destruct K as [-> | ->]; lra.
      + injection J as <-. injection J' as <-. apply (slab_plain g1 g2 b1 b2 L1 L2 ND w1 w2 (p + k * (3 / 4)) (z_out k) (k * (3 / 5)) (k * (4 / 5)) (k * (4 / 5)) (k * (3 / 5))) ; auto; unfold z_out; destruct K as [-> | ->]; lra. }
  split; [|split; [|split; [exact P0|split; [exact P1|]]]].
  - intros [|[|[|j]]] c J; cbn in J; try discriminate; injection J as <-; cbn [c_ray c_idx c_wl].
    + unfold leg_in. apply slab_start; auto; lra.
    + unfold leg_in. apply slab_start; auto; lra.
  - intros [|[|i]] I; [apply (ALL 0%nat _ _ _ _ up_passes P0)|apply (ALL 1%nat _ _ _ _ down_passes P1)|lia].
  - intros w W EW. cbv zeta. destruct (proj1 (ALL 0%nat _ _ _ _ up_passes P0) w W) as (V & SEP). apply in_rows_with_id in W. destruct W as (W & _).
    destruct (proper_legs asort AS _ _ _ _ _ _ PRO T) as (LG & _). destruct (LG w W) as (U & D & q & Q & E & F).
    assert (WR : world_ray (way w)).
    { split; [reflexivity|]. split; [exact D|]. intros (X & Y & Z). cbn [way direction vx vy vz] in X, Y, Z. unfold unit, vdot in U. rewrite X, Y, Z, D in U. lra. }
    destruct (proj1 (first_crossing asort AS comps (way w) q (row_surf w) WR V Q (SEP q)) F) as (_ & s & f & I & _ & FS & H & EF).
    assert (f = g2). { apply (same_surface [g1; g2]); auto; [change [g1; g2] with (flat_map surface_ids comps); apply in_flat_map; eauto|right; left; reflexivity|congruence]. } subst f.
    pose proof (V (Leaf g2 b2) ltac:(right; left; reflexivity)) as (_ & OK & _ & _ & G). cbn [tree_ok good_ray] in OK, G.
    destruct (surf_hit_on_surface g2 (way w) q OK WR G H) as (y & Y & EY). destruct L2 as (_ & PE & _ & EM & _).
    rewrite PE in Y. cbn [on_surface] in Y. rewrite EM, mapply_mid in EY. subst y.
    destruct (leg_end _ _ _ _ _ _ (LG w W) eq_refl F) as (_ & EX). fold (way w) in EX.
    rewrite <- EX in Y. unfold here, vset_w in Y. cbn [vx vy vz vw] in Y. lra.
Qed.
