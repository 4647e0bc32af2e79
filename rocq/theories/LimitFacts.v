(** * LimitFacts: generation limits of zero or less, and limits that are never reached *)
From Coq Require Import Reals List Bool ZArith Lia Lra.
Import ListNotations.
From Verif Require Import XR Arr Lin LinFacts Prim Csg Surf World Tracer SpecTrace.
Open Scope R_scope.

Definition relimit (n : Z) (r : tres) : tres :=
  match r with TOk t => TOk (set_generation_limit n t) | TRaise e t => TRaise e (set_generation_limit n t) | TNan => TNan | TFuel => TFuel end.
Lemma run_unlimited : forall asort h gen l, (l <= 0)%Z -> forall fuel n t, (Z.of_nat (t_gen t + fuel) < n)%Z ->
  run_states asort h gen fuel (set_generation_limit n t) = relimit n (run_states asort h gen fuel (set_generation_limit l t)).
Proof.
  intros asort h gen l L. induction fuel as [|fuel IH]; intros n t N.
  - cbn [run_states]. cbn [t_state set_generation_limit]. destruct (t_state t); reflexivity.
  - cbn [run_states]. cbn [t_state set_generation_limit]. destruct (t_state t) eqn:S; try reflexivity.
    + unfold st_initialize. cbn [t_sources reset set_gen set_state set_frame set_complete set_generation_limit].
      destruct (t_sources t); [reflexivity|]. cbn [tbind].
      match goal with |- run_states _ _ _ _ ?a = relimit _ (run_states _ _ _ _ ?b) =>
        change a with (set_generation_limit n a); change b with (set_generation_limit l a) end.
      apply IH. cbn. lia.
    + unfold st_propagate. cbn [t_comps set_generation_limit]. destruct (collect (map (shape_of h) (t_comps t))) as [comps|]; [|reflexivity]. cbn [tbind].
      match goal with |- run_states _ _ _ _ ?a = relimit _ (run_states _ _ _ _ ?b) =>
        change a with (set_generation_limit n a); change b with (set_generation_limit l a) end.
      apply IH. cbn. lia.
    + unfold st_interact. cbn [t_lut set_generation_limit]. destruct (collect (map (entry_of h) (t_lut t))) as [lut|]; [|reflexivity].
      cbn [t_limit t_gen t_rays t_hits set_generation_limit].
      assert (E : interact lut n (t_gen t) (t_rays t) (t_hits t) = interact lut l (t_gen t) (t_rays t) (t_hits t)).
      { unfold interact. replace (Z.of_nat (Datatypes.S (t_gen t)) =? n)%Z with false by (symmetry; apply Z.eqb_neq; lia).
        replace (Z.of_nat (Datatypes.S (t_gen t)) =? l)%Z with false by (symmetry; apply Z.eqb_neq; lia). reflexivity. }
      rewrite E. destruct (interact lut l (t_gen t) (t_rays t) (t_hits t)) as [|rows rays g fin| |] eqn:I; try reflexivity; cbn [tbind].
      * match goal with |- run_states _ _ _ _ ?a = relimit _ (run_states _ _ _ _ ?b) =>
          change a with (set_generation_limit n a); change b with (set_generation_limit l a) end.
        apply IH. cbn. lia.
      * match goal with |- run_states _ _ _ _ ?a = relimit _ (run_states _ _ _ _ ?b) =>
          change a with (set_generation_limit n a); change b with (set_generation_limit l a) end.
        apply IH. cbn [t_gen set_state set_gen set_rays set_frame set_generation_limit].
        assert (g = Datatypes.S (t_gen t)); [|subst g; lia].
        clear - I. unfold interact in I. destruct (lut_pass _ _) as [cells|]; [|discriminate]. destruct (filter _ _); [discriminate|].
        destruct (collect _); [|discriminate]. destruct (collect _); [|discriminate]. destruct (_ =? _)%Z; injection I; auto.
    + unfold st_finish. cbn [tbind].
      match goal with |- run_states _ _ _ _ ?a = relimit _ (run_states _ _ _ _ ?b) =>
        change a with (set_generation_limit n a); change b with (set_generation_limit l a) end.
      apply IH. cbn. lia.
Qed.
Theorem trace_unlimited : forall asort h gen l fuel t f, (l <= 0)%Z ->
  ((exists t', trace asort h gen fuel (set_generation_limit l t) = TOk t' /\ get_results t' = f) <->
   (exists n0, forall n, (n0 <= n)%Z -> exists t', trace asort h gen fuel (set_generation_limit n t) = TOk t' /\ get_results t' = f)).
Proof.
  intros asort h gen l fuel t f L.
  assert (E : forall n, (Z.of_nat (t_gen t + fuel) < n)%Z ->
    trace asort h gen fuel (set_generation_limit n t) = relimit n (trace asort h gen fuel (set_generation_limit l t))).
  { intros n N. unfold trace. change (set_state INITIALIZE (set_generation_limit n t)) with (set_generation_limit n (set_state INITIALIZE t)).
    change (set_state INITIALIZE (set_generation_limit l t)) with (set_generation_limit l (set_state INITIALIZE t)).
    apply run_unlimited; auto. }
  split.
  - intros (t' & T & R). exists (Z.of_nat (t_gen t + fuel) + 1)%Z. intros n N. rewrite E by lia. rewrite T. eexists. split; [reflexivity|exact R].
  - intros (n0 & H). set (n := Z.max n0 (Z.of_nat (t_gen t + fuel) + 1)). destruct (H n ltac:(lia)) as (t' & T & R). rewrite E in T by lia.
    destruct (trace asort h gen fuel (set_generation_limit l t)) as [u|e u| |]; try discriminate. cbn in T. injection T as <-. exists u. split; auto.
Qed.
