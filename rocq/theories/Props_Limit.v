(** * Properties C34 and C35, exactly: generation limits of zero or less *)
From Coq Require Import Reals List Bool ZArith Lia Lra.
Import ListNotations.
From Verif Require Import XR Arr Lin LinFacts Prim Csg Surf World SpecWorld Tracer SpecTrace TraceFacts8 TraceExamples TraceProps LimitFacts.
Open Scope R_scope.

(** A limit of zero or less is no limit: the trace ends with a frame exactly if all large
    enough limits end with that frame. *)
Theorem C34_limits_of_zero_or_less_exactly :
  forall asort h gen l fuel t f, (l <= 0)%Z ->
  ((exists t', trace asort h gen fuel (set_generation_limit l t) = TOk t' /\ get_results t' = f) <->
   (exists n0, forall n, (n0 <= n)%Z ->
      exists t', trace asort h gen fuel (set_generation_limit n t) = TOk t' /\ get_results t' = f)).
Proof. exact trace_unlimited. Qed.
Print Assumptions C34_limits_of_zero_or_less_exactly.

(** A ray that a mirror sends into an absorber is traced to its end with the limit 0. *)
Example C34_exactly_hypotheses : forall asort, exists h t t' w, bench_run asort [0; 2]%nat 0 h t /\
  trace asort h (emit 1 1) 9 (set_generation_limit 0 t) = TOk t' /\ In w (f_rows (get_results t')).
Proof.
  intros asort. destruct (zero_limit_rows asort) as (h & t & t' & w & B & T & I & _). exists h, t, t', w. split; auto. split; auto.
  destruct (new_tracer_table _ _ _ _ _ _ (proj2 B)) as (_ & _ & _ & _ & L).
  replace (set_generation_limit 0 t) with t; auto. destruct t. cbn in *. unfold set_generation_limit. cbn. congruence.
Qed.
