(** * TreeExamples: a concrete tree meeting the hypotheses of the tree theorems *)
From Coq Require Import Reals List Bool ZArith Lra Psatz.
Import ListNotations.
From Verif Require Import XR XRFacts Arr Csg SpecCsg CsgProps Lin LinFacts Ops Prim Surf SpecGeom SpecTree PrimFacts PrimFacts2
  SpanFacts BoxFacts TreeFacts UnionFacts.
Open Scope R_scope.

Definition ball : surf := at_origin 0 (PSphere 1).
Definition block : surf := at_origin 1 (PCube (0, 0, 0) (2, 2, 2)).
Definition rod : surf := at_origin 2 (PCylinder (1/2) (-3) 3 true).
(** union(ball, block) *)
Definition blob (asort : list xr -> list nat) : shape :=
  Node 3 UNION (csg_box asort UNION (shape_box (leaf_of ball)) (shape_box (leaf_of block))) (leaf_of ball) (leaf_of block).
(** difference(union(ball, block), rod) *)
Definition part (asort : list xr -> list nat) : shape :=
  Node 4 DIFFERENCE (csg_box asort DIFFERENCE (shape_box (blob asort)) (shape_box (leaf_of rod))) (blob asort) (leaf_of rod).
Definition long_ray : ray := Ray (point (-5) (1/10) (1/5)) (vector 1 0 0).

Lemma at_origin_ok : forall i p, prim_ok p -> surf_ok (at_origin i p).
Proof. intros i p H. split; auto. split; [apply affine_mid|apply is_inverse_mid]. Qed.
Lemma ray_map_mid : forall r, ray_map mid r = r.
Proof. intros [o d]. unfold ray_map; cbn [origin direction]. rewrite !mapply_mid. auto. Qed.

Lemma part_tree_ok : forall asort, tree_ok (part asort).
Proof.
  intro asort. cbn [part blob tree_ok leaf_of]. repeat split; try apply affine_mid; try apply mmul_mid_l; cbn [ball block rod at_origin s_prim prim_ok]; auto; lra.
Qed.
Lemma part_boxes_current : forall asort, argsort_ok asort -> boxes_current (part asort).
Proof. intros asort AS. cbn. repeat split; eauto. Qed.

Lemma box_ball : shape_box (leaf_of ball) = Box (Fin (-1), Fin 1) (Fin (-1), Fin 1) (Fin (-1), Fin 1).
Proof.
  cbn [leaf_of shape_box ball at_origin s_prim s_world]. rewrite (surf_box_mid _ (-1) (-1) (-1) 1 1 1) by reflexivity.
  rewrite !Rmin_left, !Rmax_right by lra. auto.
Qed.
Lemma box_block : shape_box (leaf_of block) = Box (Fin 0, Fin 2) (Fin 0, Fin 2) (Fin 0, Fin 2).
Proof.
  cbn [leaf_of shape_box block at_origin s_prim s_world]. rewrite (surf_box_mid _ 0 0 0 2 2 2) by reflexivity.
  rewrite !Rmin_left, !Rmax_right by lra. auto.
Qed.
Lemma blob_fits : forall asort, boxes_fit (blob asort).
Proof.
  intro asort. split; [exact I|]. split; [exact I|]. rewrite box_ball, box_block. unfold box_fits; cbn [spanx spany spanz].
  assert (K : overlapping (Fin (-1), Fin 1) (Fin 0, Fin 2)).
  { unfold overlapping; cbn [fst snd]. rewrite xmax_fin, xmin_fin. cbn [xltb]. apply rltb_true.
    rewrite Rmax_right, Rmin_left by lra. lra. }
  repeat split; left; exact K.
Qed.
Lemma part_fits : forall asort, boxes_fit (part asort).
Proof. intro asort. split; [apply blob_fits|]. split; [exact I|]. repeat split. Qed.

Lemma long_ray_world : world_ray long_ray.
Proof. unfold world_ray, moving, long_ray, point, vector; cbn [origin direction vx vy vz vw]. repeat split; try lra. Qed.
Lemma long_ray_clear : clear_dir long_ray.
Proof.
  unfold clear_dir, clear, long_ray, point, vector; cbn [origin direction vx vy vz vw].
  repeat split; auto. right. unfold atol. rewrite Rabs_right; lra.
Qed.
Lemma long_ray_good : forall asort, good_ray (part asort) long_ray.
Proof.
  intro asort. cbn [part blob good_ray leaf_of ball block rod at_origin s_prim s_obj]. rewrite !ray_map_mid.
  split; [exact long_ray_clear|]. split; [split; [exact long_ray_clear|split]|].
  - split; exact I.
  - split; [exact long_ray_clear|exact I].
  - split; [|exact I]. unfold clear_ray, clear, long_ray, vector; cbn [direction vx vy vz]. split; [right|auto].
    unfold atol. rewrite Rabs_right; lra.
Qed.
