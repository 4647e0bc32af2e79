(** * Props_Train: several lenses on one axis follow the product of their matrices *)
From Coq Require Import Reals List Bool ZArith Lra Lia Permutation.
Import ListNotations.
From Verif Require Import XR Lin Csg CsgProps Prim Surf World Tracer SpecTrace TraceFacts8 TraceProps Components SpecComponents SpecUtils SpecGauss SpecTrain TrainProps GaussExamples TrainExamples.
Open Scope R_scope.

(** C107.  [ss] are any number of thick lenses as the factory makes them, each moved along the axis, and
    [b] a screen behind them; they may be listed in any order.  A ray that starts before the first lens, in
    a plane through the axis, with height [h0 * y] and slope [u0 * y], passes through all of them in turn and
    ends on the screen: the rows it leaves show the indices on its way.  Its height there, over [y], is as
    close as one likes to what the product of the matrices says, for every small enough [y]. *)
Theorem C107_trains_of_lenses_are_gaussian : forall asort, argsort_ok asort -> forall ls ss d b comps,
  Forall lens_ok ls -> Forall2 (fun l s => made asort (lens_call l) s) ls ss -> screen_at d b -> Permutation comps (b :: ss) ->
  forall wl x0 a ns, in_line x0 ls d -> gaussian wl d x0 ls a ns ->
  forall ey ez h0 u0, ey * ey + ez * ez = 1 -> forall eps, 0 < eps -> exists delta, 0 < delta /\
  forall y, 0 < Rabs y < delta ->
  forall gen h tr fuel tr' i c, proper gen h tr comps -> (Z.of_nat (length ns) <= t_limit tr)%Z -> trace asort h gen fuel tr = TOk tr' ->
    nth_error (source_rays gen tr) i = Some c -> c_ray c = sloped ey ez x0 (h0 * y) (u0 * y) -> c_idx c = 1 -> c_wl c = wl ->
  exists rows w H, rows_with_id i (f_rows (get_results tr')) = rows ++ [w] /\ map row_idx (rows ++ [w]) = ns /\
    In (row_surf w) (map s_id (surface_ids b)) /\ row_end w = V4 d (H * ey) (H * ez) 0 /\ Rabs (H / y - height_of a h0 u0) < eps.
Proof. exact lens_trains. Qed.
Print Assumptions C107_trains_of_lenses_are_gaussian.

(** When the matrix has no B, the screen is where the object is imaged: all rays from the object point
    [h0 * y] from the axis, whatever their slopes, land A times as far from the axis, up to an error small
    against [y]. *)
Theorem C107_trains_of_lenses_form_images : forall asort, argsort_ok asort -> forall ls ss d b comps,
  Forall lens_ok ls -> Forall2 (fun l s => made asort (lens_call l) s) ls ss -> screen_at d b -> Permutation comps (b :: ss) ->
  forall wl x0 a ns, in_line x0 ls d -> gaussian wl d x0 ls a ns -> mB a = 0 ->
  forall ey ez h0 u0, ey * ey + ez * ez = 1 -> forall eps, 0 < eps -> exists delta, 0 < delta /\
  forall y, 0 < Rabs y < delta ->
  forall gen h tr fuel tr' i c, proper gen h tr comps -> (Z.of_nat (length ns) <= t_limit tr)%Z -> trace asort h gen fuel tr = TOk tr' ->
    nth_error (source_rays gen tr) i = Some c -> c_ray c = sloped ey ez x0 (h0 * y) (u0 * y) -> c_idx c = 1 -> c_wl c = wl ->
  exists rows w H, rows_with_id i (f_rows (get_results tr')) = rows ++ [w] /\ In (row_surf w) (map s_id (surface_ids b)) /\
    row_end w = V4 d (H * ey) (H * ez) 0 /\ Rabs (H - mA a * (h0 * y)) < eps * Rabs y.
Proof.
  intros asort AS ls ss d b comps OK M SC PM wl x0 a ns IL G BZ ey ez h0 u0 E eps EP.
  destruct (lens_trains asort AS ls ss d b comps OK M SC PM wl x0 a ns IL G ey ez h0 u0 E eps EP) as (delta & DP & F).
  exists delta. split; [exact DP|]. intros y Y gen h tr fuel tr' i c PR LIM TR NT RC IC WC.
  destruct (F y Y gen h tr fuel tr' i c PR LIM TR NT RC IC WC) as (rows & w & H & R & _ & S & EN & HH). exists rows, w, H. do 3 (split; [assumption|]).
  assert (YN : y <> 0) by (intros ->; rewrite Rabs_R0 in Y; lra).
  unfold height_of in HH. rewrite BZ in HH.
  replace (H - mA a * (h0 * y)) with ((H / y - (mA a * h0 + 0 * u0)) * y) by (field; exact YN). rewrite Rabs_mult. apply Rmult_lt_compat_r; [apply Y|exact HH].
Qed.
Print Assumptions C107_trains_of_lenses_form_images.

(** Two lenses and a screen built by one program.  The hypotheses hold of them, and so every near ray that
    comes in parallel ends close to -770027/360000 times its height. *)
Example C107_two_lenses : forall asort, argsort_ok asort -> exists h s1 s2 b, run_prog asort bench empty_heap = Ok h /\
  made asort (lens_call (crown_lens 0)) s1 /\ made asort (lens_call (crown_lens 3)) s2 /\ screen_at 20 b /\ lens_ok (crown_lens 0) /\
  in_line (-5) [crown_lens 0; crown_lens 3] 20 /\
  gaussian (633 / 1000) 20 (-5) [crown_lens 0; crown_lens 3] two_matrix [1; 3 / 2; 1; 3 / 2; 1] /\
  forall eps, 0 < eps -> exists delta, 0 < delta /\ forall y, 0 < Rabs y < delta ->
  exists t t', new_tracer h [9%nat] [5; 10; 0]%nat 1 10 = Some t /\ proper (ray_above y) h t [s1; s2; b] /\ trace asort h (ray_above y) 64 t = TOk t' /\
  exists rows w H, rows_with_id 0 (f_rows (get_results t')) = rows ++ [w] /\ map row_idx (rows ++ [w]) = [1; 3 / 2; 1; 3 / 2; 1] /\
    row_end w = V4 20 (H * 1) (H * 0) 0 /\ Rabs (H / y - - (770027 / 360000)) < eps.
Proof.
  intros asort AS. destruct (two_lens_scene asort AS) as (h & s1 & s2 & b & R & S1 & S2 & Sb & M1 & M2 & SC & SCN). exists h, s1, s2, b.
  do 4 (split; [assumption|]). split; [apply crown_ok|]. split; [exact two_in_line|]. split; [apply two_gaussian|]. intros eps EP.
  destruct (lens_trains asort AS [crown_lens 0; crown_lens 3] [s1; s2] 20 b [s1; s2; b]) with (wl := 633 / 1000) (x0 := -5) (a := two_matrix) (ns := [1; 3 / 2; 1; 3 / 2; 1]) (ey := 1) (ez := 0) (h0 := 1) (u0 := 0) (eps := eps) as (delta & DP & F).
  - constructor; [apply crown_ok|constructor; [apply crown_ok|constructor]].
  - constructor; [exact M1|constructor; [exact M2|constructor]].
  - exact SC.
  - apply Permutation_sym. apply (Permutation_cons_append [s1; s2] b).
  - exact two_in_line.
  - apply two_gaussian.
  - ring.
  - exact EP.
  - exists delta. split; [exact DP|]. intros y Y. destruct (SCN y) as (t & NT & PR). destruct (new_tracer_table _ _ _ _ _ _ NT) as (_ & _ & ES & EN & EL).
    destruct (proper_trace_ok asort AS _ _ _ _ 64 PR) as (t' & TR); [rewrite EL; vm_compute; lia|]. exists t, t'. do 3 (split; [assumption|]).
    assert (SR : source_rays (ray_above y) t = ray_above y 9%nat 1%nat) by (unfold source_rays; rewrite ES, EN; reflexivity).
    destruct (F y Y (ray_above y) h t 64%nat t' 0%nat (Col (Ray (V4 (-5) (y * 1) (y * 0) 1) (V4 1 0 0 0)) 0 100 (633 / 1000) 1 0) PR) as (rows & w & H & E1 & E2 & _ & E4 & E5); [rewrite EL; vm_compute; discriminate|exact TR|rewrite SR; reflexivity| |reflexivity|reflexivity|].
    + apply (ray_above_sloped y 9%nat 1%nat). left. reflexivity.
    + exists rows, w, H. do 3 (split; [assumption|]). rewrite two_height in E5. exact E5.
Qed.
(** An object point 1/2 + 6.7 before the first lens is imaged onto that screen. *)
Example C107_image : forall wl, in_line object_at [crown_lens 0; crown_lens 3] 20 /\
  gaussian wl 20 object_at [crown_lens 0; crown_lens 3] image_matrix [1; 3 / 2; 1; 3 / 2; 1] /\ mB image_matrix = 0 /\ mA image_matrix = - (770027 / 360000).
Proof. exact image_gaussian. Qed.
