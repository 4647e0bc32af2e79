(** * Props_Removal: components nothing hits, and smaller generation limits *)
From Coq Require Import Reals List Bool ZArith Lia.
Import ListNotations.
From Verif Require Import XR Csg CsgProps Surf World Tracer SpecTrace TraceExamples TraceProps RemovalProps.
Open Scope R_scope.

(** C85.  [u] is the tracer without the components that [keep] rejects.  If no row of the
    frame of [t] names a surface of a rejected component, [u] leaves the same frame. *)
Theorem C85_components_no_row_names_can_be_removed : forall asort, argsort_ok asort ->
  forall (keep : loc -> bool) gen h ss ls n limit t u comps fuel t' fuel',
  new_tracer h ss ls n limit = Some t -> new_tracer h ss (filter keep ls) n limit = Some u ->
  proper gen h t comps ->
  trace asort h gen fuel t = TOk t' -> (2 * Z.to_nat limit + 2 <= fuel')%nat ->
  (forall w l s, In w (f_rows (get_results t')) -> In l ls -> keep l = false -> shape_of h l = Some s ->
     ~ In (row_surf w) (map s_id (surface_ids s))) ->
  exists u', trace asort h gen fuel' u = TOk u' /\ f_rows (get_results u') = f_rows (get_results t').
Proof. exact unseen_components. Qed.
Print Assumptions C85_components_no_row_names_can_be_removed.

(** A sheet of glass and an absorber behind it, one generation: the only row names the glass *)
Example C85_hypotheses : forall asort, argsort_ok asort -> exists h t u t',
  new_tracer h [9%nat] [1; 2]%nat 1 1 = Some t /\ new_tracer h [9%nat] (filter (Nat.eqb 1) [1; 2]%nat) 1 1 = Some u /\
  proper (emit (-1) 1) h t (map bench_shape [1; 2]%nat) /\ trace asort h (emit (-1) 1) 5 t = TOk t' /\
  f_rows (get_results t') = [glass_row] /\
  forall w l s, In w (f_rows (get_results t')) -> In l [1; 2]%nat -> Nat.eqb 1 l = false -> shape_of h l = Some s ->
    ~ In (row_surf w) (map s_id (surface_ids s)).
Proof.
  intros asort AS. destruct (glass_only asort AS) as (h & t & u & t' & (_ & NT) & (_ & NU) & P & T & F & N).
  exists h, t, u, t'. do 5 (split; [assumption|]). intros w l s W L K S. rewrite F in W. destruct W as [<-|[]].
  destruct L as [<-|[<-|[]]]; [discriminate|]. exact (N s S).
Qed.

(** It matters that no row names it: without the glass the frame is another one *)
Example C85_named_components_matter : forall asort, argsort_ok asort -> exists h t u t' u',
  new_tracer h [9%nat] [1; 2]%nat 1 1 = Some t /\ new_tracer h [9%nat] (filter (Nat.eqb 2) [1; 2]%nat) 1 1 = Some u /\
  trace asort h (emit (-1) 1) 5 t = TOk t' /\ trace asort h (emit (-1) 1) 5 u = TOk u' /\
  f_rows (get_results t') = [glass_row] /\ f_rows (get_results u') = [fresh_row].
Proof. exact glass_matters. Qed.

(** C86.  Of two tracers for the same sources and components the one with the smaller
    generation limit leaves the rows of the other whose generation is below its limit. *)
Theorem C86_smaller_limits_cut_the_frame : forall asort, argsort_ok asort ->
  forall gen h ss ls n limit limit' t u comps fuel t' fuel',
  new_tracer h ss ls n limit = Some t -> new_tracer h ss ls n limit' = Some u -> proper gen h t comps ->
  trace asort h gen fuel t = TOk t' -> (1 <= limit' <= limit)%Z -> (2 * Z.to_nat limit' + 2 <= fuel')%nat ->
  exists u', trace asort h gen fuel' u = TOk u' /\
    f_rows (get_results u') = filter (fun w => Z.ltb (Z.of_nat (row_gen w)) limit') (f_rows (get_results t')).
Proof. exact limit_cuts. Qed.
Print Assumptions C86_smaller_limits_cut_the_frame.

Example C86_hypotheses : forall asort, argsort_ok asort -> exists h t u t',
  new_tracer h [9%nat] [1; 2]%nat 1 2 = Some t /\ new_tracer h [9%nat] [1; 2]%nat 1 1 = Some u /\
  proper (emit (-1) 1) h t (map bench_shape [1; 2]%nat) /\ trace asort h (emit (-1) 1) 7 t = TOk t' /\
  f_rows (get_results t') = [glass_row; inside_row] /\
  filter (fun w => Z.ltb (Z.of_nat (row_gen w)) 1) (f_rows (get_results t')) = [glass_row].
Proof.
  intros asort AS. destruct (proper_case asort AS) as (h & t & t' & (B & NT) & P & T & F).
  destruct (a_bench asort) as (h' & B'). destruct (a_run asort h' [1; 2]%nat 1 B' ltac:(repeat constructor)) as (u & B2 & NU).
  rewrite B in B2. injection B2 as <-.
  exists h, t, u, t'. do 5 (split; [assumption|]). rewrite F. reflexivity.
Qed.
