(** * Props_Edges: exactly where normals are outward, edges and corners included *)
From Coq Require Import Reals List Bool Lra.
Import ListNotations.
From Verif Require Import XR XRFacts Lin LinFacts Prim SpecGeom SpecNormal SpecEdges NormalFacts EdgeFacts.
Open Scope R_scope.

(** C16 at every surface point of every primitive: the normal given is a unit vector
    with the whole solid behind its plane if and only if the point is told apart from
    the faces it is not on ([outward_at]) *)
Theorem C16_normals_exactly : forall p x, prim_ok p -> on_surface p x ->
  ((exists n, prim_normal p x = Some n /\ outward p x n) <-> outward_at p x).
Proof. exact normals_exactly. Qed.
Print Assumptions C16_normals_exactly.

(** C16: a unit normal is given at every surface point of every primitive but on the
    axis of a cylinder without caps *)
Theorem C16_normals_are_given_exactly : forall p x, prim_ok p -> on_surface p x ->
  (exists n, prim_normal p x = Some n /\ vdot n n = 1 /\ vw n = 0) \/
  (prim_normal p x = None /\ vx x = 0 /\ vy x = 0 /\ exists r lo hi, p = PCylinder r lo hi false).
Proof. exact normal_given. Qed.
Print Assumptions C16_normals_are_given_exactly.

(** both cases occur: a corner of the unit cuboid is told apart, the middle of a face
    of a thin cuboid far from the origin is not *)
Example C16_exactly_hypotheses :
  (prim_ok (PCube (0, 0, 0) (1, 1, 1)) /\ on_surface (PCube (0, 0, 0) (1, 1, 1)) (point 1 1 0) /\
   outward_at (PCube (0, 0, 0) (1, 1, 1)) (point 1 1 0)) /\
  (prim_ok thin /\ on_surface thin (point 1000 (1/2) (1/2)) /\ ~ outward_at thin (point 1000 (1/2) (1/2))).
Proof.
  assert (S : on_surface (PCube (0, 0, 0) (1, 1, 1)) (point 1 1 0)).
  { unfold on_surface, solid, between, point; cbn [vx vy vz]. rewrite !Rmin_left, !Rmax_right by lra. lra. }
  split.
  - split; [exact I|]. split; auto. apply block_told_apart; auto. unfold point; cbn [vx vy vz In].
    intros v [<-|[<-|[<-|[]]]]; auto.
  - split; [exact I|]. split; [exact thin_on_surface|]. intro H.
    apply (normals_exactly thin _ I thin_on_surface) in H. destruct H as (n & E & O).
    rewrite thin_normal_wrong in E. injection E as <-. exact (thin_not_outward O).
Qed.
