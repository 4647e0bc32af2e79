(** * Property C47, exactly: the source ids, whatever the sources give and whatever was set since *)
From Coq Require Import Reals List Bool ZArith Lia Lra.
Import ListNotations.
From Verif Require Import XR Arr Lin LinFacts Prim Csg CsgProps Surf World SpecWorld Tracer SpecTrace TraceFacts TraceFacts2 TraceFacts3 TraceFacts4 TraceFacts5 TraceExamples TraceProps.
Open Scope R_scope.

(** Ray [j] of source [k] comes after the rays of the sources before it. *)
Lemma ray_of_source : forall (gen : loc -> nat -> list col) n ss i c, nth_error (concat (map (fun s => gen s n) ss)) i = Some c ->
  exists k j s, nth_error ss k = Some s /\ nth_error (gen s n) j = Some c /\
    i = (length (concat (map (fun s => gen s n) (firstn k ss))) + j)%nat.
Proof.
  intros gen n. induction ss as [|s ss IH]; intros i c N; simpl in N; [destruct i; discriminate|].
  destruct (Nat.lt_ge_cases i (length (gen s n))) as [I|I].
  - rewrite nth_error_app1 in N by lia. exists O, i, s. simpl. auto.
  - rewrite nth_error_app2 in N by lia. destruct (IH _ _ N) as (k & j & s' & K & J & E).
    exists (S k), j, s'. cbn [nth_error firstn map concat]. rewrite app_length. repeat split; auto. lia.
Qed.

(** With [n] rays per source set when the ids are computed, every row of ray [j] of source
    [k] gets its number among all rays, divided by [n]; that is [k] exactly if the number
    lies in the [k]-th block of [n]. *)
Theorem C47_source_ids_exactly :
  forall asort h gen fuel t t' n, trace asort h gen fuel t = TOk t' -> (0 < n)%nat ->
  exists ids, f_source_ids (get_results (calculate_source_ids (set_rays_per_source n t'))) = Some ids /\
    f_rows (get_results (calculate_source_ids (set_rays_per_source n t'))) = f_rows (get_results t') /\
    length ids = length (f_rows (get_results t')) /\
    forall m w, nth_error (f_rows (get_results t')) m = Some w ->
      exists k s j c number, nth_error (t_sources t) k = Some s /\ nth_error (gen s (t_n t)) j = Some c /\
        number = (length (concat (map (fun s => gen s (t_n t)) (firstn k (t_sources t)))) + j)%nat /\
        row_id w = number /\ nth_error ids m = Some (Z.of_nat (number / n)) /\
        (nth_error ids m = Some (Z.of_nat k) <-> (k * n <= number < (k + 1) * n)%nat).
Proof.
  intros asort h gen fuel t t' n T P.
  eexists. split; [reflexivity|]. split; [reflexivity|]. split; [unfold get_results; cbn; apply map_length|].
  intros m w W. destruct (frame_rows _ _ _ _ _ _ T) as (comps' & lut' & k' & _ & _ & B & _).
  destruct (B w (nth_error_In _ _ W)) as (c & N & _).
  destruct (ray_of_source _ _ _ _ _ N) as (k & j & s & K & J & E).
  exists k, s, j, c, (row_id w). split; auto. split; auto. split; auto. split; auto.
  assert (V : nth_error (map (fun w0 => trunc (INR (row_id w0) / INR (t_n (set_rays_per_source n t')))) (f_rows (t_frame (set_rays_per_source n t')))) m = Some (Z.of_nat (row_id w / n))).
  { rewrite nth_error_map. unfold get_results in W. cbn [t_frame set_rays_per_source t_n]. rewrite W. cbn [option_map]. f_equal.
    rewrite (Nat.div_mod (row_id w) n) at 1 by lia. rewrite (Nat.mul_comm n). apply trunc_div. apply Nat.mod_upper_bound. lia. }
  split; [exact V|]. rewrite V. split.
  - intro Q. injection Q as Q. apply Nat2Z.inj in Q. pose proof (Nat.div_mod (row_id w) n ltac:(lia)). pose proof (Nat.mod_upper_bound (row_id w) n ltac:(lia)). rewrite Q in H. nia.
  - intro Q. do 2 f_equal. symmetry. apply (Nat.div_unique (row_id w) n k (row_id w - k * n)); lia.
Qed.
Print Assumptions C47_source_ids_exactly.

Example C47_exactly_hypotheses : forall asort, argsort_ok asort -> exists h t t' w, new_tracer h [8; 9]%nat [2%nat] 1 1 = Some t /\
  trace asort h (emit (-1) 1) 5 t = TOk t' /\ In w (f_rows (get_results t')) /\ row_id w = 1%nat.
Proof.
  intros asort AS. destruct (renumbered_case asort AS) as (h & t & t' & m & w & _ & NT & T & N & I & _).
  exists h, t, t', w. repeat split; auto. eapply nth_error_In; eauto.
Qed.
