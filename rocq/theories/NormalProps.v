(** * NormalProps: normals and world hits in the form used by the property theorems *)
From Coq Require Import Reals List Bool ZArith Lra Psatz.
Import ListNotations.
From Verif Require Import XR XRFacts Arr Csg Lin LinFacts Ops Prim Surf SpecGeom SpecTree SpecNormal PrimFacts PrimFacts2
  BoxFacts TreeFacts UnionFacts SurfFacts NormalFacts TreeExamples.
Open Scope R_scope.

Lemma thin_refuted : exists p x n, prim_ok p /\ on_surface p x /\ prim_normal p x = Some n /\ ~ outward p x n.
Proof.
  exists thin, (point 1000 (1/2) (1/2)), (vector 1 0 0). split; [exact I|].
  split; [apply thin_on_surface|]. split; [apply thin_normal_wrong|apply thin_not_outward].
Qed.

(** a paraboloid stretched by (2, 3, 5) and moved by (1, 0, 0) *)
Definition stretched : surf :=
  Surf 7 (PParaboloid 1 4)
    (M4 (V4 2 0 0 1) (V4 0 3 0 0) (V4 0 0 5 0) (V4 0 0 0 1))
    (M4 (V4 (1/2) 0 0 (-(1/2))) (V4 0 (1/3) 0 0) (V4 0 0 (1/5) 0) (V4 0 0 0 1)) 1 Mirror.

Lemma stretched_ok : surf_ok stretched.
Proof.
  unfold surf_ok, stretched; cbn [s_prim s_world s_obj prim_ok]. split; [lra|]. split.
  - unfold affine; reflexivity.
  - unfold is_inverse, mmul, mtrans, mapply, vdot, mid; cbn [row0 row1 row2 row3 vx vy vz vw].
    split; f_equal; f_equal; field.
Qed.
Definition through : ray := Ray (point 1 (-30) 5) (vector 0 1 0).
Lemma through_world : world_ray through /\ vnorm (direction through) = 1.
Proof.
  unfold world_ray, moving, through, point, vector, vnorm, vdot; cbn [origin direction vx vy vz vw].
  repeat split; try lra. replace (0 * 0 + 1 * 1 + 0 * 0 + 0 * 0) with 1 by ring. apply sqrt_1.
Qed.
Lemma through_good : good_local (s_prim stretched) (ray_map (s_obj stretched) through).
Proof.
  split; [|exact I].
  unfold clear_ray, clear, stretched, through, ray_map, mapply, vdot, point, vector;
    cbn [s_prim s_obj row0 row1 row2 row3 origin direction vx vy vz vw].
  split; [|split]; [right|left|left]; try ring.
  unfold atol. rewrite Rabs_right; lra.
Qed.
Lemma through_inside : placed stretched (ray_at through 30).
Proof.
  exists (point 0 0 1). unfold stretched, through, ray_at, solid, mapply, vdot, point, vector;
    cbn [s_prim s_world row0 row1 row2 row3 origin direction vx vy vz vw].
  split; [reflexivity|]. split; [lra|]. f_equal; lra.
Qed.
(** the point (2, 0, 1) of the bowl x^2+y^2 = 4z, placed at (5, 0, 5) *)
Lemma stretched_point : let q := point 5 0 5 in
  vw q = 1 /\ mapply (s_obj stretched) q = point 2 0 1 /\ on_surface (s_prim stretched) (point 2 0 1) /\
  off_edges (s_prim stretched) (point 2 0 1).
Proof.
  unfold stretched, point, mapply, vdot, on_surface, solid, off_edges, off_band; cbn [s_prim s_obj row0 row1 row2 row3 vx vy vz vw].
  split; auto. split; [f_equal; lra|]. split; [lra|].
  intro H. exfalso. unfold isclose in H. apply rleb_true in H. unfold atol, rtol in H.
  rewrite (Rabs_left (1 - 4)), (Rabs_right 4) in H by lra. lra.
Qed.
