(** * Properties C28..C33: reflection, refraction and root finding *)
From Coq Require Import Reals List Bool.
Import ListNotations.
From Verif Require Import XR Lin Ops SpecOptics OpsFacts OpsExamples.
Open Scope R_scope.

(** C28 *)
Theorem C28_reflect_obeys_the_law_of_reflection :
  forall v n, unit n ->
  mirrored v (reflect v n) n /\
  vdot (reflect v n) (reflect v n) = vdot v v /\
  reflect (reflect v n) n = v.
Proof.
  exact (fun v n U => conj (conj (reflect_dot_normal v n U) (reflect_tangential v n U))
                           (conj (reflect_length v n U) (reflect_involution v n U))).
Qed.
Print Assumptions C28_reflect_obeys_the_law_of_reflection.

Theorem C28_all_call_shapes_agree :
  forall vs ns n,
  reflect_one_normal vs n = map (fun v => reflect v n) vs /\
  reflect_matrix vs ns = map (fun q => reflect (fst q) (snd q)) (combine vs ns).
Proof. exact (fun vs ns n => conj (reflect_one_normal_map vs n) (reflect_matrix_map vs ns)). Qed.
Print Assumptions C28_all_call_shapes_agree.

Example C28_hypotheses : unit facing /\ vdot slanted facing = -4.
Proof. split; [exact facing_unit|unfold slanted, facing, vdot; cbn [vx vy vz vw]; ring]. Qed.

(** C29.  [tangential] scaled by the index is the same on both sides: the refracted ray
    is in the plane of incidence and n1 sin(theta1) = n2 sin(theta2). *)
Theorem C29_refract_obeys_snell :
  forall v n n1 n2 n_global,
  vdot v v <> 0 -> unit n -> 0 < n1 -> 0 < n2 -> 0 < n_global ->
  n1 * vnorm (tangential (hat v) n) < next_index v n n2 n_global ->
  exists d, refract v n n1 n2 n_global = Some (d, next_index v n n2 n_global) /\
    unit d /\
    vscale n1 (tangential (hat v) n) = vscale (next_index v n n2 n_global) (tangential d n) /\
    (if Rlt_dec 0 (vdot v n) then 0 < vdot d n else vdot d n < 0).
Proof. exact refract_snell. Qed.
Print Assumptions C29_refract_obeys_snell.

Example C29_hypotheses :
  vdot slanted slanted <> 0 /\ unit facing /\
  1 * vnorm (tangential (hat slanted) facing) < next_index slanted facing (3/2) 1.
Proof. exact into_glass. Qed.

(** C30 *)
Theorem C30_total_internal_reflection :
  forall v n n1 n2 n_global,
  vdot v v <> 0 -> unit n -> 0 < n1 -> 0 < n2 -> 0 < n_global ->
  next_index v n n2 n_global <= n1 * vnorm (tangential (hat v) n) ->
  exists d, refract v n n1 n2 n_global = Some (d, n1) /\ unit d /\ mirrored (hat v) d n.
Proof. exact refract_tir. Qed.
Print Assumptions C30_total_internal_reflection.

(** C30: and only then does the ray stay on its side of the interface *)
Theorem C30_reflection_only_when_total :
  forall v n n1 n2 n_global d m,
  vdot v v <> 0 -> unit n -> 0 < n1 -> 0 < n2 -> 0 < n_global ->
  refract v n n1 n2 n_global = Some (d, m) -> vdot v n <> 0 -> vdot d n * vdot v n <= 0 ->
  next_index v n n2 n_global <= n1 * vnorm (tangential (hat v) n).
Proof. exact refract_only_tir. Qed.
Print Assumptions C30_reflection_only_when_total.

Example C30_hypotheses :
  vdot (vopp slanted) (vopp slanted) <> 0 /\ unit facing /\
  next_index (vopp slanted) facing (12/5) 1 <= 12/5 * vnorm (tangential (hat (vopp slanted)) facing).
Proof. exact out_of_diamond. Qed.

(** C31: a unit ray that starts in the medium on its own side of the interface
    (the world outside, the material inside), neither grazing nor totally reflected *)
Theorem C31_refraction_is_reversible :
  forall v n n2 n_global,
  unit v -> unit n -> 0 < n2 -> 0 < n_global -> vdot v n <> 0 ->
  let n1 := if Rlt_dec 0 (vdot v n) then n2 else n_global in
  n1 * vnorm (tangential v n) < next_index v n n2 n_global ->
  exists d m, refract v n n1 n2 n_global = Some (d, m) /\
              refract (vopp d) n m n2 n_global = Some (vopp v, n1).
Proof. exact refract_back. Qed.
Print Assumptions C31_refraction_is_reversible.

Example C31_hypotheses :
  unit (hat slanted) /\ unit facing /\ vdot (hat slanted) facing <> 0 /\
  1 * vnorm (tangential (hat slanted) facing) < next_index (hat slanted) facing (3/2) 1.
Proof. exact there_and_back. Qed.

(** C32 where [a] is outside numpy's isclose band, or exactly zero with [b] outside
    the band or zero.  Missing: the band itself, refuted below. *)
Theorem C32_quadratic_roots_partial :
  forall a b c, atol < Rabs a ->
  let '(p0, p1) := binomial_root a b c in
  (exists x0 x1, p0 = Fin x0 /\ p1 = Fin x1 /\ forall x, root_of a b c x <-> x = x0 \/ x = x1) \/
  (p0 = PInf /\ p1 = PInf /\ forall x, ~ root_of a b c x).
Proof. exact binomial_quadratic. Qed.
Print Assumptions C32_quadratic_roots_partial.

Theorem C32_linear_root_partial :
  forall b c, atol < Rabs b ->
  exists x0, binomial_root 0 b c = (Fin x0, Fin x0) /\ forall x, root_of 0 b c x <-> x = x0.
Proof. exact binomial_linear. Qed.
Print Assumptions C32_linear_root_partial.

Theorem C32_constant_partial :
  forall c, binomial_root 0 0 c = (if rleb c 0 then MInf else PInf, PInf).
Proof. exact binomial_constant. Qed.
Print Assumptions C32_constant_partial.

Example C32_hypotheses : atol < Rabs 1 /\ root_of 1 (-3) 2 1.
Proof. exact spr_case. Qed.

(** C32 fails for 1e-9 x^2 + x - 1: the code returns 1 twice *)
Theorem C32_tiny_leading_coefficient_refuted :
  binomial_root (/ 1000000000) 1 (-1) = (Fin 1, Fin 1) /\ ~ root_of (/ 1000000000) 1 (-1) 1.
Proof. exact binomial_refuted. Qed.
Print Assumptions C32_tiny_leading_coefficient_refuted.

(** C33 for a > 0, and for a < 0 unless the roots have opposite signs *)
Theorem C33_smallest_root_partial :
  forall a b c, atol < Rabs a ->
  (a < 0 -> ~ exists x y, root_of a b c x /\ root_of a b c y /\ x < 0 <= y) ->
  (exists x, smallest_positive_root a b c = Fin x /\ root_of a b c x /\ 0 <= x /\
     forall y, root_of a b c y -> 0 <= y -> x <= y) \/
  (smallest_positive_root a b c = PInf /\ forall y, root_of a b c y -> y < 0).
Proof. exact spr_correct. Qed.
Print Assumptions C33_smallest_root_partial.

Example C33_hypotheses : atol < Rabs (-1) /\ root_of (-1) 3 (-2) 1 /\
  ~ exists x y, root_of (-1) 3 (-2) x /\ root_of (-1) 3 (-2) y /\ x < 0 <= y.
Proof. exact spr_case_neg. Qed.

(** C33 fails for 1 - x^2: the answer is inf, but 1 is a root *)
Theorem C33_negative_leading_coefficient_refuted :
  smallest_positive_root (-1) 0 1 = PInf /\ root_of (-1) 0 1 1.
Proof. exact spr_refuted. Qed.
Print Assumptions C33_negative_leading_coefficient_refuted.
