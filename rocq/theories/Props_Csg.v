(** * Properties C01, C02: boolean combination of hit arrays *)
From Coq Require Import Reals List Bool ZArith Lra.
Import ListNotations.
From Verif Require Import XR XRFacts Arr Csg SpecCsg CsgProps.
Open Scope R_scope.

(** C01.  [inside_at t l]: an odd number of entries of [l] is before [t].  For every
    argsort, every pair of sorted even-length arrays (ties and infinities allowed),
    every operation and every position [t] (a number or an infinity). *)
Theorem C01_array_csg_is_boolean_combination :
  forall asort, argsort_ok asort ->
  forall op l1 l2 t,
  ascending xsle l1 -> ascending xsle l2 ->
  Nat.Even (length l1) -> Nat.Even (length l2) -> t <> NaN ->
  inside_at xsle t (array_csg xsle PInf asort l1 l2 op)
  = bool_op op (inside_at xsle t l1) (inside_at xsle t l2).
Proof. exact xr_array_csg_inside. Qed.
Print Assumptions C01_array_csg_is_boolean_combination.

(** the hypotheses are met by an actual argsort and overlapping, touching arrays *)
Example C01_hypotheses :
  argsort_ok (argsort_stable xsle PInf) /\
  ascending xsle [Fin 0; Fin 2] /\ ascending xsle [Fin 1; Fin 2] /\
  Nat.Even (length [Fin 0; Fin 2]) /\ Fin 1 <> NaN.
Proof.
  split; [exact argsort_ok_stable|]. split; [apply asc2; lra|]. split; [apply asc2; lra|].
  split; [exists 1%nat; reflexivity|discriminate].
Qed.

(** C02 *)
Theorem C02_array_csg_output_is_well_formed :
  forall asort, argsort_ok asort ->
  forall op l1 l2,
  ascending xsle l1 -> ascending xsle l2 ->
  Nat.Even (length l1) -> Nat.Even (length l2) ->
  let out := array_csg xsle PInf asort l1 l2 op in
  length out = (length l1 + length l2)%nat /\
  ascending xsle out /\
  (forall v, v <> PInf ->
     (count_occ xr_eq_dec out v <= count_occ xr_eq_dec l1 v + count_occ xr_eq_dec l2 v)%nat) /\
  (Nat.Even (below xsle PInf l1) -> Nat.Even (below xsle PInf l2) -> Nat.Even (below xsle PInf out)).
Proof. exact xr_array_csg_shape. Qed.
Print Assumptions C02_array_csg_output_is_well_formed.
Example C02_hypotheses :
  argsort_ok (argsort_stable xsle PInf) /\
  ascending xsle [Fin 0; Fin 2] /\ ascending xsle [Fin 1; Fin 2] /\
  Nat.Even (length [Fin 0; Fin 2]) /\ Nat.Even (length [Fin 1; Fin 2]).
Proof.
  split; [exact argsort_ok_stable|]. split; [apply asc2; lra|]. split; [apply asc2; lra|].
  split; exists 1%nat; reflexivity.
Qed.

(** C02: an unknown operation raises (None), the three known ones do not *)
Theorem C02_array_csg_unknown_operation_raises :
  forall asort l1 l2 op,
  array_csg_call xsle PInf asort l1 l2 op = None <-> op = None.
Proof. intros asort l1 l2 [o|]; simpl; split; congruence. Qed.
Print Assumptions C02_array_csg_unknown_operation_raises.
