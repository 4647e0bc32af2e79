(** * Props_Kinds: what biconvex and plano-convex lenses do to rays near their axis *)
From Coq Require Import Reals List Bool ZArith Lra Lia Permutation.
Import ListNotations.
From Verif Require Import XR XRFacts Lin Csg CsgProps Prim Surf World Tracer SpecTrace TraceFacts8 TraceProps Components SpecComponents SpecUtils SpecGauss SpecTrain TrainFacts TrainProps GaussExamples TrainExamples TrainExamples2.
Open Scope R_scope.

(** C110 (as documented, components.py:167-214).  The curvatures of the two surfaces of a lens and its full thickness:
    [r1] faces -x and [r2] faces +x; the flat side of a plano-convex lens faces -x. *)
Inductive documented : maker -> R -> R -> R -> Prop :=
| Doc_biconvex : forall r1 r2 t, documented (BiconvexLens r1 r2 t) (/ r1) (- / r2) t
| Doc_plano : forall r t, documented (PlanoConvexLens r t) 0 (- / r) t.
(** From [x0] through a lens with these data, centred at [q], to the screen at [d] *)
Definition documented_way (k1 k2 t n q x0 d : R) : m2 :=
  m2_mul (travel (d - (q + t / 2))) (m2_mul (lens_matrix k1 k2 n t) (travel (q - t / 2 - x0))).
(** Partial: the radii of a biconvex lens must be equal. *)
Theorem C110_lenses_focus_as_documented_partial : forall asort, argsort_ok asort -> forall l s d b comps k1 k2 t,
  lens_ok l -> documented (l_by l) k1 k2 t -> (forall r1 r2 t, l_by l = BiconvexLens r1 r2 t -> r1 = r2) ->
  made asort (lens_call l) s -> screen_at d b -> Permutation comps [b; s] ->
  forall wl x0 n, x0 < l_at l - t / 2 -> l_at l + t / 2 + ray_offset_value < d -> l_index l wl = Fin n -> 0 < n ->
  forall ey ez h0 u0, ey * ey + ez * ez = 1 -> forall eps, 0 < eps -> exists delta, 0 < delta /\
  forall y, 0 < Rabs y < delta ->
  forall gen h tr fuel tr' i c, proper gen h tr comps -> (3 <= t_limit tr)%Z -> trace asort h gen fuel tr = TOk tr' ->
    nth_error (source_rays gen tr) i = Some c -> c_ray c = sloped ey ez x0 (h0 * y) (u0 * y) -> c_idx c = 1 -> c_wl c = wl ->
  exists rows w H, rows_with_id i (f_rows (get_results tr')) = rows ++ [w] /\ map row_idx (rows ++ [w]) = [1; n; 1] /\
    In (row_surf w) (map s_id (surface_ids b)) /\ row_end w = V4 d (H * ey) (H * ez) 0 /\
    Rabs (H / y - height_of (documented_way k1 k2 t n (l_at l) x0 d) h0 u0) < eps.
Proof.
  intros asort AS l s d b comps k1 k2 t OK DOC EQ M SC PM wl x0 n X0 D IX NP.
  assert (F : front_of l = l_at l - t / 2 /\ back_of l = l_at l + t / 2 /\ l_t l = t /\ curvature (l_r1 l) k1 /\ curvature (l_r2 l) k2).
  { destruct l as [mk ap ix q]. cbn [l_by l_at] in *. unfold front_of, back_of, l_t, l_r1, l_r2; cbn [l_by l_at]. destruct OK as (_ & _ & OK). cbn [l_by l_ap] in OK. inversion DOC; subst.
    - assert (r1 = r2) as <- by (eapply EQ; reflexivity). replace (rltb r1 r1) with false by (symmetry; apply rltb_false; lra).
      unfold l_t in OK; cbn [l_by] in OK. replace (rltb r1 r1) with false in OK by (symmetry; apply rltb_false; lra).
      repeat split; cbn; try lra. field. lra.
    - repeat split; cbn; try lra. field. lra. }
  destruct F as (FO & BO & TO & K1 & K2).
  intros ey ez h0 u0 E eps EP.
  apply (lens_trains asort AS [l] [s] d b comps) with (wl := wl) (x0 := x0) (a := documented_way k1 k2 t n (l_at l) x0 d) (ns := [1; n; 1]); auto.
  - cbn [in_line]. rewrite FO, BO. split; assumption.
  - unfold documented_way. rewrite <- FO, <- BO, <- TO. apply (G_lens wl d x0 l [] k1 k2 n _ [1]); auto. apply G_air.
Qed.
Print Assumptions C110_lenses_focus_as_documented_partial.

(** The mixed train of a biconvex and a plano-convex lens, built by one program: the hypotheses of C107 hold
    of it, and every near ray that comes in parallel ends close to -101/150 times its height. *)
Theorem C110_mixed_train : forall asort, argsort_ok asort -> exists h s1 s2 b, run_prog asort mixed_bench empty_heap = Ok h /\
  made asort (lens_call bi_lens) s1 /\ made asort (lens_call plano_lens) s2 /\ screen_at 20 b /\ lens_ok bi_lens /\ lens_ok plano_lens /\
  in_line (-5) [bi_lens; plano_lens] 20 /\
  gaussian (633 / 1000) 20 (-5) [bi_lens; plano_lens] mixed_matrix [1; 3 / 2; 1; 3 / 2; 1] /\
  forall eps, 0 < eps -> exists delta, 0 < delta /\ forall y, 0 < Rabs y < delta ->
  exists t t', new_tracer h [9%nat] [5; 8; 0]%nat 1 10 = Some t /\ proper (ray_above y) h t [s1; s2; b] /\ trace asort h (ray_above y) 64 t = TOk t' /\
  exists rows w H, rows_with_id 0 (f_rows (get_results t')) = rows ++ [w] /\ map row_idx (rows ++ [w]) = [1; 3 / 2; 1; 3 / 2; 1] /\
    row_end w = V4 20 (H * 1) (H * 0) 0 /\ Rabs (H / y - - (101 / 150)) < eps.
Proof.
  intros asort AS. destruct (mixed_scene asort AS) as (h & s1 & s2 & b & R & S1 & S2 & Sb & M1 & M2 & SC & SCN). exists h, s1, s2, b.
  do 4 (split; [assumption|]). split; [apply bi_ok|]. split; [apply plano_ok|]. split; [exact mixed_in_line|]. split; [apply mixed_gaussian|]. intros eps EP.
  destruct (lens_trains asort AS [bi_lens; plano_lens] [s1; s2] 20 b [s1; s2; b]) with (wl := 633 / 1000) (x0 := -5) (a := mixed_matrix) (ns := [1; 3 / 2; 1; 3 / 2; 1]) (ey := 1) (ez := 0) (h0 := 1) (u0 := 0) (eps := eps) as (delta & DP & F).
  - constructor; [apply bi_ok|constructor; [apply plano_ok|constructor]].
  - constructor; [exact M1|constructor; [exact M2|constructor]].
  - exact SC.
  - apply Permutation_sym. apply (Permutation_cons_append [s1; s2] b).
  - exact mixed_in_line.
  - apply mixed_gaussian.
  - ring.
  - exact EP.
  - exists delta. split; [exact DP|]. intros y Y. destruct (SCN y) as (t & NT & PR). destruct (new_tracer_table _ _ _ _ _ _ NT) as (_ & _ & ES & EN & EL).
    destruct (proper_trace_ok asort AS _ _ _ _ 64 PR) as (t' & TR); [rewrite EL; vm_compute; lia|]. exists t, t'. do 3 (split; [assumption|]).
    assert (SR : source_rays (ray_above y) t = ray_above y 9%nat 1%nat) by (unfold source_rays; rewrite ES, EN; reflexivity).
    destruct (F y Y (ray_above y) h t 64%nat t' 0%nat (Col (Ray (V4 (-5) (y * 1) (y * 0) 1) (V4 1 0 0 0)) 0 100 (633 / 1000) 1 0) PR) as (rows & w & H & E1 & E2 & _ & E4 & E5); [rewrite EL; vm_compute; discriminate|exact TR|rewrite SR; reflexivity| |reflexivity|reflexivity|].
    + apply (ray_above_sloped y 9%nat 1%nat). left. reflexivity.
    + exists rows, w, H. do 3 (split; [assumption|]). rewrite mixed_height in E5. exact E5.
Qed.
Print Assumptions C110_mixed_train.

(** With different radii the claim is false: biconvex_lens(10, 20, 1), followed by the plano-convex lens.  By
    the documentation a parallel ray would reach the screen more than its own height below the axis; it
    stays within seven tenths, for every small height. *)
Theorem C110_unequal_radii_refuted : documented (l_by bi_lens) (/ 10) (- / 20) 1 /\ height_of documented_matrix 1 0 < -1 /\
  documented_matrix = m2_mul (documented_way 0 (/ - (10)) 1 (3 / 2) 3 (0 + 1 / 2) 20) (m2_mul (lens_matrix (/ 10) (/ - (20)) (3 / 2) 1) (travel (0 - 1 / 2 - -5))) /\
  forall asort, argsort_ok asort -> exists h s1 s2 b, run_prog asort mixed_bench empty_heap = Ok h /\
  made asort (lens_call bi_lens) s1 /\ made asort (lens_call plano_lens) s2 /\ screen_at 20 b /\
  exists delta, 0 < delta /\ forall y, 0 < Rabs y < delta ->
  exists t t', new_tracer h [9%nat] [5; 8; 0]%nat 1 10 = Some t /\ proper (ray_above y) h t [s1; s2; b] /\ trace asort h (ray_above y) 64 t = TOk t' /\
  exists rows w H, rows_with_id 0 (f_rows (get_results t')) = rows ++ [w] /\ row_end w = V4 20 (H * 1) (H * 0) 0 /\ - (7 / 10) < H / y.
Proof.
  split; [constructor|]. split; [exact documented_height|]. split; [reflexivity|]. intros asort AS.
  destruct (C110_mixed_train asort AS) as (h & s1 & s2 & b & R & M1 & M2 & SC & _ & _ & _ & _ & F). exists h, s1, s2, b. do 4 (split; [assumption|]).
  destruct (F (1 / 100) ltac:(lra)) as (delta & D & G). exists delta. split; [exact D|]. intros y Y. destruct (G y Y) as (t & t' & N & P & T & rows & w & H & E1 & _ & E3 & E4).
  exists t, t'. do 3 (split; [assumption|]). exists rows, w, H. do 2 (split; [assumption|]). apply Rabs_def2 in E4. lra.
Qed.
Print Assumptions C110_unequal_radii_refuted.

(** The lens of examples/convex_collimator.py meets the hypotheses of the first theorem. *)
Example C110_collimator : let l := Lens (BiconvexLens 2 2 (1 / 4)) (Round 1) (fun _ => Fin (3 / 2)) 0 in
  lens_ok l /\ documented (l_by l) (/ 2) (- / 2) (1 / 4) /\ (forall r1 r2 t, l_by l = BiconvexLens r1 r2 t -> r1 = r2) /\ (exists prog k, lens_call l = Makes prog k).
Proof.
  cbv zeta. split.
  - split; [cbn; lra|]. split; [exact I|]. unfold l_t; cbn [l_by]. replace (rltb 2 2) with false by (symmetry; apply rltb_false; lra). repeat split; lra.
  - split; [constructor|]. split; [intros r1 r2 t E; injection E as <- <- _; reflexivity|]. eexists _, _. reflexivity.
Qed.
