(** * FlExamples: a trace with binary64 optics *)
From Coq Require Import Reals List Bool ZArith Permutation Lra Lia.
Import ListNotations.
From Flocq Require Import Core.
From Verif Require Import XR XRFacts Lin World Tracer Rounded SpecRounded RoundedExact Fl SpecFl FlFacts FlProps FlBinary.
Open Scope R_scope.

(** The rays are directions; those going up meet a mirror that faces down *)
Definition dot64 (v w : v4) : R :=
  binary64 (vx v * vx w + binary64 (vy v * vy w + binary64 (vz v * vz w + binary64 (vw v * vw w)))).
Definition mirror64 (v : v4) : v4 := vround binary64 (vsub v (vround binary64 (vscale (dot64 v (up_z (-1))) (vround binary64 (vscale 2 (up_z (-1))))))).
Definition hit64 (v : v4) : unit * Z := (tt, if rltb 0 (vz v) then 5%Z else (-1)%Z).
Definition absorbed64 (v : v4) : bool := isclose (binary64 (sqrt (dot64 v v))) 0.
Definition trace64 (s : unit) : option (v4 * unit * unit -> v4 * unit) := Some (fun q => (mirror64 (fst (fst q)), snd q)).
Definition k64 : kernels :=
  Kernels unit unit v4 unit (fun _ => tt) (fun _ => zero4) (at_pos (tt, (-1)%Z) hit64) (at_pos zero4 snd)
    (fun s xs => match trace64 s with None => None | Some f => Some (at_pos (zero4, tt) f xs) end)
    (at_pos false absorbed64) (fun _ => false) (at_pos tt (fun _ => tt)) (at_pos zero4 (fun v => v)).
Definition one64 : one_ray k64 := OneRay k64 hit64 snd trace64 absorbed64 (fun _ => tt) (fun v => v).
Lemma k64_by_ray : ray_by_ray k64 one64.
Proof.
  unfold ray_by_ray; cbn. repeat (split; [apply at_pos_by_itself|]). intros s xs. eexists. split; [reflexivity|]. intros i x E. unfold at_pos. rewrite E. reflexivity.
Qed.
Lemma dot64_rdot : forall v w, rdot binary64 (pairs v w) (dot64 v w).
Proof.
  intros v w. unfold pairs, coords, dot64. cbn [combine].
  apply (Rdot_fma binary64 _ _ _ _ _ (Permutation_refl _)), (Rdot_fma binary64 _ _ _ _ _ (Permutation_refl _)), (Rdot_fma binary64 _ _ _ _ _ (Permutation_refl _)), Rdot_mul.
Qed.
Lemma k64_optical : optical binary64 k64 one64 (fun v => v).
Proof.
  repeat split; auto. intros b H. exists (binary64 (sqrt (dot64 b b))). split; auto. exists (dot64 b b). split; auto. apply dot64_rdot.
Qed.
Lemma k64_mirror : is_mirror binary64 u64 eta64 k64 one64 (fun v => v) tt.
Proof.
  exists (fun q => (mirror64 (fst (fst q)), snd q)). split; [reflexivity|]. intros b wl n. exists (up_z (-1)), (up_z (-1)). split; [apply sizeable_axis; auto|]. split.
  - exists (up_z (-1)), 1. split; [apply normalize_axis; auto|]. split; auto. rewrite scale_axis. f_equal. ring.
  - exists (dot64 b (up_z (-1))). split; [apply dot64_rdot|reflexivity].
Qed.
Lemma dot64_axis : forall a b, binary64 (a * b) = a * b -> dot64 (up_z a) (up_z b) = a * b.
Proof. intros a b E. unfold dot64, up_z, vector; cbn [vx vy vz vw]. rewrite Rmult_0_l, (exact_int 0 eq_refl), Rplus_0_r, !E, !Rplus_0_l, !E. reflexivity. Qed.
Lemma mirror64_up : mirror64 (up_z 1) = up_z (-1).
Proof.
  unfold mirror64. rewrite dot64_axis by (rewrite Rmult_1_l; exact none64). rewrite scale_axis. replace (2 * -1) with (IZR (-2)) by ring.
  rewrite (round_axis _ (exact_int (-2) eq_refl)), scale_axis. replace (1 * -1 * -2) with (IZR 2) by ring. rewrite (round_axis _ (exact_int 2 eq_refl)).
  unfold vsub, vopp. rewrite scale_axis, add_axis. replace (1 + -1 * 2) with (-1) by ring. apply round_axis. exact none64.
Qed.
Lemma absorbed64_up : forall a, a = 1 \/ a = -1 -> absorbed64 (up_z a) = false.
Proof.
  intros a A. assert (A2 : a * a = 1) by (destruct A as [-> | ->]; ring). unfold absorbed64. rewrite dot64_axis by (rewrite A2; exact FlBinary.one64). rewrite A2, sqrt_1, FlBinary.one64.
  unfold isclose, atol, rtol. apply rleb_false. rewrite Rminus_0_r, Rabs_R0, Rabs_R1. lra.
Qed.
Definition ray64 : ncol k64 := @NCol k64 (up_z 1) 0 tt tt tt 0.
Lemma trace64_case : exists w, n_trace k64 10 [(5%Z, tt)] 10 [ray64] = Finished [w] /\ nr_surf w = 5%Z.
Proof.
  assert (H1 : hit64 (up_z 1) = (tt, 5%Z)). { unfold hit64, up_z, vector; cbn [vz]. replace (rltb 0 1) with true by (symmetry; apply rltb_true; lra). reflexivity. }
  assert (H2 : hit64 (up_z (-1)) = (tt, (-1)%Z)). { unfold hit64, up_z, vector; cbn [vz]. replace (rltb 0 (-1)) with false by (symmetry; apply rltb_false; lra). reflexivity. }
  pose proof (absorbed64_up 1 (or_introl eq_refl)) as A1. pose proof (absorbed64_up (-1) (or_intror eq_refl)) as A2. pose proof mirror64_up as M.
  assert (STEP : forall fuel table limit gen rays rows, n_loop k64 (S fuel) table limit gen rays rows =
    match n_surfaces k64 table (map (fun q => n_copy k64 (fst q) (snd q)) (combine (n_hits k64 rays) rays)) with
    | None => Raised
    | Some cells =>
        if forallb (fun b => b) (n_dead k64 rays cells) then Finished rows
        else if Z.eqb (Z.of_nat (S gen)) limit then Finished (rows ++ n_insert k64 (select (map negb (n_dead k64 rays cells)) rays) (select (map negb (n_dead k64 rays cells)) cells))
        else n_loop k64 fuel table limit (S gen) (n_offset k64 (map (set_generation k64 (S gen)) (map snd (select (map negb (n_dead k64 rays cells)) cells))))
               (rows ++ n_insert k64 (select (map negb (n_dead k64 rays cells)) rays) (select (map negb (n_dead k64 rays cells)) cells))
    end) by reflexivity.
  eexists. split.
  - transitivity (n_loop k64 10 [(5%Z, tt)] 10 0 [ray64] []); [reflexivity|].
    rewrite STEP. unfold n_hits. cbn -[n_loop hit64 absorbed64 mirror64 up_z]. rewrite H1. cbn -[n_loop hit64 absorbed64 mirror64 up_z]. rewrite A1. cbn -[n_loop hit64 absorbed64 mirror64 up_z].
    rewrite M. rewrite STEP. unfold n_hits. cbn -[n_loop hit64 absorbed64 mirror64 up_z]. rewrite H2. cbn -[n_loop hit64 absorbed64 mirror64 up_z]. rewrite orb_true_r. cbn -[n_loop hit64 absorbed64 mirror64 up_z]. reflexivity.
  - reflexivity.
Qed.
Lemma float_case : ray_by_ray k64 one64 /\ optical binary64 k64 one64 (fun v => v) /\ NoDup (map fst [(5%Z, tt)]) /\
  (forall z s, In (z, s) [(5%Z, tt)] -> ~ False -> is_mirror binary64 u64 eta64 k64 one64 (fun v => v) s \/ is_glass binary64 u64 eta64 k64 one64 (fun v => v) s) /\
  Rabs (vnorm (n_beam ray64) - 1) <= 512 * u64 /\ exists w, n_trace k64 10 [(5%Z, tt)] 10 [ray64] = Finished [w] /\ nr_surf w = 5%Z.
Proof.
  split; [exact k64_by_ray|]. split; [exact k64_optical|]. split; [repeat constructor; auto|]. split.
  - intros z s [I|[]] _. injection I as <- <-. left. exact k64_mirror.
  - split; [|exact trace64_case]. cbn. replace (vnorm (up_z 1)) with 1; [rewrite Rminus_diag_eq by auto; rewrite Rabs_R0; pose proof u64_small; lra|].
    unfold vnorm, vdot, up_z, vector; cbn. replace (0 * 0 + 0 * 0 + 1 * 1 + 0 * 0) with 1 by ring. symmetry. apply sqrt_1.
Qed.
