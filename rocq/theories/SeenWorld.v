(** * SeenWorld: the boxes that programs leave behind *)
From Coq Require Import Reals List Bool ZArith Lra Lia.
Import ListNotations.
From Verif Require Import XR XRFacts Arr Csg SpecCsg CsgFacts CsgProps Lin Prim Surf SpecGeom SpecTree SpecSeen BoxFacts TreeFacts SeenFacts
  World SpecWorld WorldFacts WorldFacts4.
Open Scope R_scope.

Definition vboxes (h : heap) : Prop := forall l o, get h l = Some o -> vbox (o_box o).
Definition after (P : heap -> Prop) (r : res) : Prop := match r with Ok h | Raise _ h => P h | Diverge => True end.

Lemma after_bind : forall P r k, after P r -> (forall h, P h -> after P (k h)) -> after P (bind r k).
Proof. intros P [h|e h|] k H K; simpl in *; auto. Qed.

Lemma vboxes_upd : forall h l f, vboxes h -> (forall o, vbox (o_box o) -> vbox (o_box (f o))) -> vboxes (upd h l f).
Proof.
  intros h l f V F x o G. unfold get, upd in G; cbn [h_objs] in G. unfold vboxes, get in V.
  revert l x V G. induction (h_objs h) as [|a os IH]; intros l x V G; [destruct x; discriminate|].
  destruct l as [|l]; cbn [list_upd] in G.
  - destruct x as [|x]; cbn [nth_error] in G.
    + injection G as <-. apply F. apply (V 0%nat a eq_refl).
    + apply (V (S x)). exact G.
  - destruct x as [|x]; cbn [nth_error] in G.
    + injection G as <-. apply (V 0%nat a eq_refl).
    + apply (IH l x); auto. intros y o' Gy. apply (V (S y) o'). exact Gy.
Qed.
Lemma vboxes_alloc : forall k h, vboxes h -> vboxes (alloc k h).
Proof.
  intros k h V x o G. unfold get, alloc in G; cbn [h_objs] in G. destruct (Nat.lt_ge_cases x (length (h_objs h))) as [L|L].
  - rewrite nth_error_app1 in G by auto. exact (V x o G).
  - rewrite nth_error_app2 in G by auto. destruct (x - length (h_objs h))%nat as [|n]; cbn [nth_error] in G; [|destruct n; discriminate].
    injection G as <-. cbn [o_box]. repeat split; right; reflexivity.
Qed.

Section S.
  Variable asort : list xr -> list nat.
  Hypothesis AS : argsort_ok asort.

  Lemma box_of_vbox : forall h l b, vboxes h -> box_of h l = Some b -> vbox b.
  Proof.
    intros h l b V H. unfold box_of in H. destruct (get h l) as [o|] eqn:G; [|discriminate].
    pose proof (V _ _ G). destruct (o_kind o); try discriminate; injection H as <-; auto.
  Qed.
  Lemma handler_vboxes : forall w h, vboxes h -> after vboxes (run_handler asort w h).
  Proof.
    intros [l|l|l] h V; cbn [run_handler]; destruct (get h l) as [o|] eqn:G; try exact V.
    - destruct (rltb _ _); [cbn [after]; apply vboxes_upd; auto|]. destruct (minv _); cbn [after]; repeat apply vboxes_upd; auto.
    - destruct (o_kind o); cbn [after]; auto. apply vboxes_upd; auto. intros o' _. apply surf_box_vbox.
    - destruct (o_kind o); cbn [after]; auto. destruct (box_of h l0) as [a|] eqn:A; auto. destruct (box_of h r) as [b|] eqn:B; auto.
      apply vboxes_upd; auto. intros o' _. cbn [o_box with_box]. apply csg_box_vbox; auto; eapply box_of_vbox; eauto.
  Qed.
  Lemma run_all_vboxes : forall ws h, vboxes h -> after vboxes (run_all asort ws h).
  Proof. induction ws as [|w ws IH]; intros h V; cbn [run_all]; [exact V|]. apply after_bind; [apply handler_vboxes|]; auto. Qed.
  Lemma transform_vboxes : forall n l t h, vboxes h -> after vboxes (transform asort n l t h).
  Proof.
    induction n as [|n IH]; intros l t h V; cbn [transform]; [exact I|]. destruct (get h l) as [o|] eqn:G; [|exact V].
    apply after_bind.
    - unfold append_own. rewrite G. apply run_all_vboxes. apply vboxes_upd; auto.
    - intros h1 V1. revert h1 V1. induction (children (o_kind o)) as [|c cs IHc]; intros h1 V1; cbn [each]; [exact V1|].
      apply after_bind; auto.
  Qed.
  Lemma set_normals_vboxes : forall n k l h, vboxes h -> after vboxes (set_normals n k l h).
  Proof.
    induction n as [|n IH]; intros k l h V; cbn [set_normals]; [exact I|]. destruct (get h l) as [o|]; [|exact V].
    destruct (o_kind o); cbn [after]; auto; [apply vboxes_upd; auto|]. apply after_bind; auto.
  Qed.
  Lemma attach_vboxes : forall c p h, vboxes h -> after vboxes (attach_to c p h).
  Proof.
    intros c p h V. unfold attach_to. destruct (get h c) as [oc|]; [|exact V]. destruct (get h p) as [op|]; [|exact V].
    destruct (o_kind oc); cbn [after]; auto; apply vboxes_upd; auto.
  Qed.
  Lemma call_vboxes : forall c h, vboxes h -> after vboxes (run_call asort c h).
  Proof.
    intros [|p m|ms|g ms|op l r|l o|l|l] h V; cbn [run_call].
    - apply vboxes_alloc; auto.
    - unfold new_surface. destruct (prim_init p); [|exact V]. cbn [after].
      apply vboxes_upd; auto. apply vboxes_upd; [apply vboxes_alloc; auto|]. intros o _.
      cbn [o_box with_box]. apply bounding_box_vbox. apply bounding_points_nonempty.
    - unfold new_group. destruct (valid_locs h ms); [apply vboxes_alloc|]; auto.
    - unfold group_set. destruct (get h g) as [o|]; [|exact V]. destruct (o_kind o); try exact V.
      destruct (valid_locs h ms); [|exact V]. apply vboxes_upd; auto.
    - unfold new_csg. destruct (negb _); [exact V|]. apply after_bind; [apply attach_vboxes; apply vboxes_upd; [apply vboxes_alloc|]; auto|].
      intros h3 V3. apply after_bind; [apply attach_vboxes; auto|]. intros h4 V4. apply after_bind; [|intros; apply handler_vboxes; auto].
      destruct op; try exact V4. apply set_normals_vboxes; auto.
    - unfold apply_motion. destruct (motion_matrix o); [apply transform_vboxes; auto|exact V].
    - apply set_normals_vboxes; auto.
    - apply set_normals_vboxes; auto.
  Qed.
  Lemma prog_vboxes : forall cs h h', vboxes h -> run_prog asort cs h = Ok h' -> vboxes h'.
  Proof.
    induction cs as [|c cs IH]; intros h h' V H; [injection H as <-; auto|]. cbn [run_prog] in H.
    pose proof (call_vboxes c h V) as K. destruct (run_call asort c h) as [h1|e h1|]; try discriminate. exact (IH h1 h' K H).
  Qed.
  Lemma empty_vboxes : vboxes empty_heap.
  Proof. intros [|x] o G; discriminate. Qed.

  Lemma shape_boxes_valid : forall n h l s, vboxes h -> shape_fuel n h l = Some s -> boxes_valid s.
  Proof.
    induction n as [|n IH]; intros h l s V H; cbn [shape_fuel] in H; [discriminate|]. destruct (get h l) as [o|] eqn:G; [|discriminate].
    pose proof (V _ _ G) as B. destruct (o_kind o) as [|p m|op lc rc|ms]; try discriminate.
    - injection H as <-. exact B.
    - destruct (shape_fuel n h lc) as [a|] eqn:A; [|discriminate]. destruct (shape_fuel n h rc) as [b|] eqn:B'; [|discriminate].
      injection H as <-. cbn [boxes_valid]. split; auto. split; eapply IH; eauto.
  Qed.

  (** ** Any history *)
  Lemma built_shown : forall cs h l s, Forall ok_call cs -> run_prog asort cs empty_heap = Ok h -> shape_of h l = Some s ->
    forall asort' r, argsort_ok asort' -> world_ray r -> good_ray s r ->
    exists L, forall t, ~ In t L ->
      (inside_at xsle (Fin t) (fst (shape_intersect asort' s r)) = true <-> shown s r (ray_at r t)).
  Proof.
    intros cs h l s F H E asort' r AS' W G. apply shape_shown; auto; [eapply prog_tree_ok; eauto|].
    eapply shape_boxes_valid; [|exact E]. eapply prog_vboxes; [apply empty_vboxes|eauto].
  Qed.
End S.
