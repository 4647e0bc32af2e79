(** * Props_Shade: absorbing components only cut histories short *)
From Coq Require Import Reals List ZArith.
Import ListNotations.
From Verif Require Import XR Csg CsgProps Surf World Tracer SpecTrace TraceExamples TraceProps TraceFacts5 SpecShade ShadeProps.
Open Scope R_scope.

(** C125.  [t] is a tracer and [u] the tracer without the components that [keep] rejects.  If the
    surfaces of these are absorbing (or never take part, like the solid that cuts an aperture),
    the rows of every ray in [t] are its rows in [u], or these up to a leg that ends on a
    rejected component. *)
Theorem C125_absorbers_only_cut_histories_short : forall asort, argsort_ok asort ->
  forall (keep : loc -> bool) gen h ss ls n limit t u comps fuel t' fuel' u',
  new_tracer h ss ls n limit = Some t -> new_tracer h ss (filter keep ls) n limit = Some u -> scene h t comps ->
  (forall l X f, In l ls -> keep l = false -> shape_of h l = Some X -> In f (surface_ids X) ->
     s_mat f = Absorber \/ s_mat f = Untraceable) ->
  trace asort h gen fuel t = TOk t' -> trace asort h gen fuel' u = TOk u' ->
  forall i, cut_short (screens h keep ls) (rows_with_id i (f_rows (get_results t'))) (rows_with_id i (f_rows (get_results u'))).
Proof. exact opaque_components. Qed.
Print Assumptions C125_absorbers_only_cut_histories_short.

(** So they add nothing to what the other components see: every row of [t] that does not end on a
    rejected component is also a row of [u]. *)
Theorem C125_absorbers_add_no_other_rows : forall asort, argsort_ok asort ->
  forall (keep : loc -> bool) gen h ss ls n limit t u comps fuel t' fuel' u',
  new_tracer h ss ls n limit = Some t -> new_tracer h ss (filter keep ls) n limit = Some u -> scene h t comps ->
  (forall l X f, In l ls -> keep l = false -> shape_of h l = Some X -> In f (surface_ids X) ->
     s_mat f = Absorber \/ s_mat f = Untraceable) ->
  trace asort h gen fuel t = TOk t' -> trace asort h gen fuel' u = TOk u' ->
  forall w, In w (f_rows (get_results t')) -> ~ screens h keep ls (row_surf w) -> In w (f_rows (get_results u')).
Proof.
  intros asort AS keep gen h ss ls n limit t u comps fuel t' fuel' u' NT NU SC OP T U w W N.
  apply (in_rows_with_id (row_id w)). eapply cut_keeps; [|apply in_rows_with_id; split; [exact W|reflexivity]|exact N].
  exact (opaque_components asort AS keep gen h ss ls n limit t u comps fuel t' fuel' u' NT NU SC OP T U (row_id w)).
Qed.
Print Assumptions C125_absorbers_add_no_other_rows.

(** A sheet of glass and an absorber behind it: without the absorber the ray keeps its row up to
    the glass and the row up to the absorber is gone. *)
Example C125_hypotheses : forall asort, argsort_ok asort -> exists h t u t' u',
  new_tracer h [9%nat] [1; 2]%nat 1 2 = Some t /\ new_tracer h [9%nat] (filter (Nat.eqb 1) [1; 2]%nat) 1 2 = Some u /\
  scene h t (map bench_shape [1; 2]%nat) /\
  (forall l X f, In l [1; 2]%nat -> Nat.eqb 1 l = false -> shape_of h l = Some X -> In f (surface_ids X) ->
     s_mat f = Absorber \/ s_mat f = Untraceable) /\
  trace asort h (emit (-1) 1) 7 t = TOk t' /\ trace asort h (emit (-1) 1) 7 u = TOk u' /\
  f_rows (get_results t') = [glass_row; inside_row] /\
  In glass_row (f_rows (get_results u')) /\ ~ In inside_row (f_rows (get_results u')).
Proof. exact without_absorber. Qed.
