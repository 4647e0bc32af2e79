(** * WorldFacts5: untouched objects, fresh boxes, the algebra of movements *)
From Coq Require Import Reals List Bool ZArith Lra Lia.
Import ListNotations.
From Verif Require Import XR XRFacts Arr Lin LinFacts Prim Csg Surf SpecGeom SpecTree CsgProps World SpecWorld WorldFacts WorldFacts2 WorldFacts3 WorldFacts4.
Open Scope R_scope.

(** ** objects that are not parts are not moved *)
Lemma matc_world : forall o o', matc o -> matc o' -> o_world o' = o_world o ->
  o_obj o' = o_obj o /\ o_origin o' = o_origin o /\ o_dir o' = o_dir o.
Proof.
  intros o o' (I & P & _ & D) (I' & P' & _ & D') E. rewrite E in *. split; [symmetry; exact (inverse_unique _ _ _ (proj1 I) (proj2 I'))|]. split; congruence.
Qed.
Lemma transform_unmoved : forall asort l t h h' x o, all_good h -> transform asort (depth h) l t h = Ok h' ->
  get h x = Some o -> ~ In x (parts h l) -> exists o', get h' x = Some o' /\ unmoved o o'.
Proof.
  intros asort l t h h' x o A H G N. pose proof (transform_good _ _ _ _ _ _ A H) as A'.
  assert (Sk : sks h h') by (apply (transform_sks asort (depth h) l t); rewrite H; auto).
  destruct (proj2 (proj2 Sk) _ _ G) as (o' & G' & (E1 & E2 & E3 & E4)). exists o'. split; auto.
  pose proof (transform_wld _ _ _ _ _ _ _ H G) as W. rewrite times_zero in W by auto. simpl in W. rewrite mmul_mid_l in W.
  unfold wld in W. rewrite G' in W. injection W as W.
  destruct (matc_world o o') as (B1 & B2 & B3); auto; [apply (A _ _ G)|apply (A' _ _ G')|].
  unfold unmoved. auto 10.
Qed.
(** and a surface that is not a part keeps its box *)
Lemma transform_part : forall asort l t h h' x o, transform asort (depth h) l t h = Ok h' -> get h x = Some o ->
  exists o', get h' x = Some o' /\ o_id o' = o_id o /\ o_kind o' = o_kind o /\ o_nscale o' = o_nscale o /\
    o_world o' = mmul (power (times h l x) t) (o_world o).
Proof.
  intros asort l t h h' x o H G.
  assert (Sk : sks h h') by (apply (transform_sks asort (depth h) l t); rewrite H; auto).
  destruct (proj2 (proj2 Sk) _ _ G) as (o' & G' & (E1 & E2 & E3 & E4)). exists o'.
  pose proof (transform_wld _ _ _ _ _ _ _ H G) as W. unfold wld in W. rewrite G' in W. injection W as W. auto.
Qed.
Lemma NoDup_times : forall h l x, NoDup (parts h l) -> In x (parts h l) -> times h l x = 1%nat.
Proof.
  intros h l x N I. unfold times. pose proof (proj1 (NoDup_count_occ Nat.eq_dec (parts h l)) N x).
  pose proof (proj1 (count_occ_In Nat.eq_dec (parts h l) x) I). lia.
Qed.

(** a group of objects without parts *)
Lemma flat_group_times : forall h g o ms x, get h g = Some o -> o_kind o = KGroup ms ->
  (forall m, In m ms -> exists om, get h m = Some om /\ children (o_kind om) = []) -> x <> g ->
  times h g x = count_occ Nat.eq_dec ms x.
Proof.
  intros h g o ms x G K F N. unfold times, parts, depth.
  assert (P : exists n, length (h_objs h) = S n) by (apply get_lt in G; destruct (length (h_objs h)); [lia|eauto]).
  destruct P as (n & ->). cbn [parts_upto]. rewrite G, K. cbn [children].
  assert (E : flat_map (fun l => l :: match get h l with Some o => flat_map (parts_upto n h) (children (o_kind o)) | None => [] end) ms = ms).
  { clear - F. induction ms as [|m ms IH]; simpl; auto. destruct (F m (or_introl eq_refl)) as (om & Gm & C). rewrite Gm, C. simpl.
    f_equal. apply IH. intros; apply F; right; auto. }
  cbn [count_occ]. destruct (Nat.eq_dec g x); [congruence|]. f_equal. exact E.
Qed.

(** ** freshly built CSG objects have current boxes *)
Definition still (c : call) : Prop := match c with CMotion _ _ => False | _ => True end.
Definition all_current (asort : list xr -> list nat) (h : heap) : Prop := forall x, box_current asort h x.
Lemma current_frame : forall asort h h' x, (forall y o, get h y = Some o -> exists o', get h' y = Some o' /\ o_kind o' = o_kind o /\ o_box o' = o_box o) ->
  (exists o, get h x = Some o) -> box_current asort h x -> box_current asort h' x.
Proof.
  intros asort h h' x F (o & G) C o' op a b G' K'. destruct (F _ _ G) as (o1 & G1 & K1 & B1). rewrite G1 in G'. injection G' as <-.
  rewrite K1 in K'. destruct (C o op a b G K') as (ba & bb & Ba & Bb & E). exists ba, bb.
  assert (BF : forall y v, box_of h y = Some v -> box_of h' y = Some v).
  { intros y v. unfold box_of. destruct (get h y) as [oy|] eqn:Gy; [|discriminate]. destruct (F _ _ Gy) as (oy' & -> & -> & ->). auto. }
  rewrite B1. auto.
Qed.
Lemma new_csg_frame : forall asort op a b h h', new_csg asort op a b h = Ok h' -> forall y o, get h y = Some o ->
  exists o', get h' y = Some o' /\ o_kind o' = o_kind o /\ o_box o' = o_box o.
Proof.
  intros asort op a b h h' H y o G. destruct (new_csg_shape _ _ _ _ _ _ H) as (La & Lb & _ & _ & _ & _ & _ & C).
  destruct (C _ _ G) as (o' & G' & K' & _). exists o'. split; auto. split; auto.
  pose proof (get_lt _ _ _ G) as L.
  unfold new_csg in H. destruct (negb _); [discriminate|]. cbv zeta in H.
  set (n := fresh h) in *. set (h2 := upd _ n _) in H. assert (En : n = length (h_objs h)) by reflexivity.
  assert (G2 : get h2 y = Some o) by (unfold h2; rewrite get_upd_other by lia; rewrite get_alloc_old by lia; auto).
  destruct (attach_to a n h2) as [h3|e h3|] eqn:E3; try discriminate. cbn [bind] in H.
  destruct (attach_to b n h3) as [h4|e h4|] eqn:E4; try discriminate. cbn [bind] in H.
  destruct (match op with DIFFERENCE => _ | _ => _ end) as [h5|e h5|] eqn:E5 in H; try discriminate. cbn [bind] in H.
  assert (AT : forall c p g g' og, attach_to c p g = Ok g' -> get g y = Some og -> exists og', get g' y = Some og' /\ o_box og' = o_box og).
  { intros c p g g' og E Gg. destruct (attach_ok _ _ _ _ E) as (oc & op' & Gc & _ & _ & ->). rewrite get_upd. destruct (y =? c) eqn:Ey; [|eauto].
    apply Nat.eqb_eq in Ey. subst y. rewrite Gg in *. injection Gc as <-. simpl. eauto. }
  assert (SN : forall n k l g g' og, set_normals n k l g = Ok g' -> get g y = Some og -> exists og', get g' y = Some og' /\ o_box og' = o_box og).
  { clear. induction n as [|n IH]; intros k l g g' og E Gg; [discriminate|]. simpl in E. destruct (get g l) as [ol|] eqn:Gl; [|discriminate].
    destruct (o_kind ol); try discriminate.
    - injection E as <-. rewrite get_upd. destruct (y =? l); [rewrite Gg; simpl; eauto|eauto].
    - destruct (set_normals n k l0 g) as [g1|e g1|] eqn:E1; try discriminate. simpl in E.
      destruct (IH _ _ _ _ _ E1 Gg) as (o1 & G1 & B1). destruct (IH _ _ _ _ _ E G1) as (o2 & G2 & B2). exists o2. split; auto. congruence. }
  destruct (AT _ _ _ _ _ E3 G2) as (o3 & G3 & B3). destruct (AT _ _ _ _ _ E4 G3) as (o4 & G4 & B4).
  assert (X : exists o5, get h5 y = Some o5 /\ o_box o5 = o_box o4) by (destruct op; try (injection E5 as <-; eauto); eapply SN; eauto).
  destruct X as (o5 & G5 & B5). destruct (proj2 (proj2 (run_handler_step _ _ _ _ H)) _ _ G5) as (o6 & G6 & St).
  rewrite G' in G6. injection G6 as <-. destruct St as (_ & _ & _ & _ & [B|[B|B]] & _); [congruence|discriminate|injection B as B; lia].
Qed.
Lemma run_call_current : forall asort c h h', still c -> wf h -> all_current asort h -> run_call asort c h = Ok h' -> all_current asort h'.
Proof.
  assert (FR : forall asort h h', (forall y o', get h' y = Some o' -> (exists o, get h y = Some o) \/ forall op a b, o_kind o' <> KCsg op a b) ->
    (forall y o, get h y = Some o -> exists o', get h' y = Some o' /\ o_kind o' = o_kind o /\ o_box o' = o_box o) ->
    all_current asort h -> all_current asort h').
  { intros asort h h' B F A x. destruct (get h' x) as [o'|] eqn:G'; [|intros o op a b G; congruence].
    destruct (B _ _ G') as [E|E].
    - eapply current_frame; eauto.
    - intros o op a b G K. rewrite G' in G. injection G as <-. edestruct E; eauto. }
  assert (AL : forall asort k h, (forall op a b, k <> KCsg op a b) -> all_current asort h -> all_current asort (alloc k h)).
  { intros asort k h N A. apply (FR asort h); auto.
    - intros y o' G. destruct (get_alloc _ _ _ _ G) as [G1|(-> & ->)]; [eauto|]. right. auto.
    - intros y o G. exists o. rewrite get_alloc_old by (eapply get_lt; eauto). auto. }
  assert (UP : forall asort h l f, (forall o, o_kind (f o) = o_kind o /\ o_box (f o) = o_box o) -> all_current asort h -> all_current asort (upd h l f)).
  { intros asort h l f E A. apply (FR asort h); auto.
    - intros y o' G. rewrite get_upd in G. destruct (y =? l), (get h y); try discriminate; eauto.
    - intros y o G. rewrite get_upd. rewrite G. destruct (y =? l); simpl; [destruct (E o); eauto|eauto]. }
  assert (SN : forall asort n k l h h', set_normals n k l h = Ok h' -> all_current asort h -> all_current asort h').
  { intros asort. induction n as [|n IH]; intros k l g g' E A; [discriminate|]. simpl in E. destruct (get g l) as [ol|] eqn:Gl; [|discriminate].
    destruct (o_kind ol); try discriminate.
    - injection E as <-. apply UP; auto.
    - destruct (set_normals n k l0 g) as [g1|e g1|] eqn:E1; try discriminate. simpl in E. eauto. }
  intros asort c h h' N W A H. destruct c as [|p m|ms|g ms|op a b|l o|l|l]; cbn [run_call] in H; try destruct N.
  - injection H as <-. apply AL; auto. discriminate.
  - unfold new_surface in H. destruct (prim_init p); [|discriminate]. injection H as <-. apply UP; auto.
    (* the new box belongs to a surface that nothing refers to *)
    assert (A1 : all_current asort (alloc (KSurf p m) h)) by (apply AL; auto; discriminate).
    intros x o op a b G K. rewrite get_upd in G. destruct (x =? fresh h) eqn:Ex.
    + apply Nat.eqb_eq in Ex. subst x. rewrite get_alloc_new in G. injection G as <-. discriminate.
    + apply Nat.eqb_neq in Ex. destruct (A1 x o op a b G K) as (ba & bb & Ba & Bb & E). exists ba, bb.
      destruct (get_alloc _ _ _ _ G) as [G1|(-> & _)]; [|congruence].
      pose proof (W x o G1) as X. unfold wfx in X. rewrite K in X. destruct X as (_ & La & Lb & _). apply get_lt in G1.
      assert (BO : forall y, (y < x)%nat -> box_of (upd (alloc (KSurf p m) h) (fresh h) (with_box (bounding_box (bounding_points p)))) y = box_of (alloc (KSurf p m) h) y).
      { intros y Ly. unfold box_of. rewrite get_upd_other; auto. unfold fresh. lia. }
      rewrite !BO by auto. auto.
  - unfold new_group in H. destruct (valid_locs h ms); [|discriminate]. injection H as <-. apply AL; auto. discriminate.
  - unfold group_set in H. destruct (get h g) as [o|] eqn:G; [|discriminate]. destruct (o_kind o) eqn:K; try discriminate.
    destruct (valid_locs h ms); [|discriminate]. injection H as <-.
    intros x o' op a b Gx Kx. rewrite get_upd in Gx. destruct (x =? g) eqn:Ex; [destruct (get h x); [|discriminate]; injection Gx as <-; discriminate|].
    destruct (A x o' op a b Gx Kx) as (ba & bb & Ba & Bb & E). exists ba, bb.
    assert (BO : forall y v, box_of h y = Some v -> box_of (upd h g (with_members ms)) y = Some v).
    { intros y v. unfold box_of. rewrite get_upd. destruct (y =? g) eqn:Ey; auto. apply Nat.eqb_eq in Ey. subst y. rewrite G, K. discriminate. }
    auto.
  - pose proof (new_csg_shape _ _ _ _ _ _ H) as (_ & _ & _ & _ & L & _).
    intro x. destruct (Nat.eq_dec x (fresh h)) as [->|Nx]; [eapply new_csg_current; eauto|].
    destruct (get h x) as [o|] eqn:G.
    + eapply current_frame; [eapply new_csg_frame; eauto|eauto|auto].
    + intros o' op' a' b' G' _. apply get_lt in G'. unfold get in G. apply nth_error_None in G. unfold fresh in Nx. lia.
  - eapply SN; eauto.
  - eapply SN; eauto.
Qed.
Lemma run_prog_current : forall asort cs h h', Forall still cs -> wf h -> all_current asort h -> run_prog asort cs h = Ok h' -> all_current asort h'.
Proof.
  intros asort cs. induction cs as [|c cs IH]; intros h h' F W A H.
  - injection H as <-. auto.
  - inversion F; subst. simpl in H. destruct (run_call asort c h) as [h1|e h1|] eqn:E; try discriminate. apply (IH h1); auto.
    + eapply wf_run_call; eauto.
    + eapply run_call_current; eauto.
Qed.
Lemma empty_current : forall asort, all_current asort empty_heap.
Proof. intros asort [|x] o op a b G; discriminate. Qed.
Lemma fresh_boxes_current : forall asort cs h l s, argsort_ok asort -> Forall still cs -> run_prog asort cs empty_heap = Ok h ->
  shape_of h l = Some s -> boxes_current s.
Proof.
  intros asort cs h l s AS F H S. apply (shape_boxes_current asort AS h) with (n := depth h) (l := l); auto.
  - eapply run_prog_good; eauto using empty_good.
  - intros x _. eapply run_prog_current; eauto using wf_empty, empty_current.
Qed.

(** ** the algebra of movements *)
Ltac mcalc := unfold mmul, mtrans, mapply, vdot; cbn [row0 row1 row2 row3 vx vy vz vw];
  apply mat_eq; cbn [row0 row1 row2 row3]; apply v4_eq; cbn [vx vy vz vw]; try ring.
Lemma moves_add : forall x y z x' y' z' a b c, motion_matrix (Move x y z) = Some a -> motion_matrix (Move x' y' z') = Some b ->
  motion_matrix (Move (x + x') (y + y') (z + z')) = Some c -> mmul b a = c /\ mmul a b = c.
Proof. intros x y z x' y' z' a b c A B C. cbn in A, B, C. injection A as <-. injection B as <-. injection C as <-. split; mcalc. Qed.
Definition rot (ax : nat) (a : R) (u : units) : motion :=
  match ax with 0%nat => RotX a u | 1%nat => RotY a u | _ => RotZ a u end.
Lemma rot_add : forall ax a b u m n k, motion_matrix (rot ax a u) = Some m -> motion_matrix (rot ax b u) = Some n ->
  motion_matrix (rot ax (a + b) u) = Some k -> mmul n m = k.
Proof.
  intros [|[|ax]] a b u m n k A B C; cbn in A, B, C; destruct u; cbn in A, B, C; try discriminate;
    injection A as <-; injection B as <-; injection C as <-;
    try replace ((a + b) * PI / 180) with (b * PI / 180 + a * PI / 180) by field;
    try replace (a + b) with (b + a) by ring;
    rewrite ?sin_plus, ?cos_plus; mcalc.
Qed.
Lemma rot_zero : forall ax u m, motion_matrix (rot ax 0 u) = Some m -> m = mid.
Proof.
  intros [|[|ax]] u m A; cbn in A; destruct u; cbn in A; try discriminate; injection A as <-;
    try replace (0 * PI / 180) with 0 by field; rewrite ?sin_0, ?cos_0; unfold mid; rewrite ?Ropp_0; reflexivity.
Qed.
Lemma rot_undo : forall ax a u m n, motion_matrix (rot ax a u) = Some m -> motion_matrix (rot ax (- a) u) = Some n ->
  mmul n m = mid /\ mmul m n = mid.
Proof.
  intros ax a u m n A B. assert (exists k, motion_matrix (rot ax 0 u) = Some k) as [k K].
  { destruct ax as [|[|ax]], u; cbn in *; eauto; discriminate. }
  pose proof (rot_zero _ _ _ K) as ->. split.
  - apply (rot_add ax a (- a) u); auto. rewrite Rplus_opp_r. auto.
  - apply (rot_add ax (- a) a u); auto. rewrite Rplus_opp_l. auto.
Qed.
Lemma rigid_dist : forall m t p q, rigid m -> motion_matrix m = Some t -> vw p = 1 -> vw q = 1 -> dist (mapply t p) (mapply t q) = dist p q.
Proof.
  intros m t p q R M P Q. destruct (rigid_iso _ _ R M) as (_ & I & _). unfold dist, vnorm. f_equal.
  assert (E : vsub (mapply t p) (mapply t q) = mapply t (vsub p q)).
  { destruct p as [p1 p2 p3 p4], q as [q1 q2 q3 q4]. unfold vsub, vadd, vopp, vscale, mapply, vdot. cbn [vx vy vz vw]. apply v4_eq; cbn [vx vy vz vw]; ring. }
  rewrite E. apply I. unfold vsub, vadd, vopp, vscale. cbn [vw]. rewrite P, Q. ring.
Qed.
Lemma scale_coords : forall a b c t p, motion_matrix (Scale a b c) = Some t ->
  0 <= a /\ 0 <= b /\ 0 <= c /\ mapply t p = V4 (a * vx p) (b * vy p) (c * vz p) (vw p).
Proof.
  intros a b c t p H. simpl in H. destruct (rltb a 0) eqn:A; [discriminate|]. destruct (rltb b 0) eqn:B; [discriminate|].
  destruct (rltb c 0) eqn:C; [discriminate|]. injection H as <-. apply rltb_false in A, B, C. split; [lra|]. split; [lra|]. split; [lra|].
  unfold mapply, vdot. cbn [row0 row1 row2 row3 vx vy vz vw]. apply v4_eq; cbn [vx vy vz vw]; ring.
Qed.
Lemma move_coords : forall a b c t p, motion_matrix (Move a b c) = Some t -> vw p = 1 ->
  mapply t p = V4 (vx p + a) (vy p + b) (vz p + c) 1.
Proof.
  intros a b c t p H P. cbn in H. injection H as <-. unfold mapply, vdot. cbn [row0 row1 row2 row3 vx vy vz vw]. rewrite P.
  apply v4_eq; cbn [vx vy vz vw]; ring.
Qed.
(** rotations turn by the right-hand rule *)
Lemma rot_quarter : motion_matrix (RotX 90 Deg) = Some (M4 (V4 1 0 0 0) (V4 0 0 (-1) 0) (V4 0 1 0 0) (V4 0 0 0 1)) /\
  motion_matrix (RotY 90 Deg) = Some (M4 (V4 0 0 1 0) (V4 0 1 0 0) (V4 (-1) 0 0 0) (V4 0 0 0 1)) /\
  motion_matrix (RotZ 90 Deg) = Some (M4 (V4 0 (-1) 0 0) (V4 1 0 0 0) (V4 0 0 1 0) (V4 0 0 0 1)).
Proof.
  cbn. replace (90 * PI / 180) with (PI / 2) by field. rewrite sin_PI2, cos_PI2.
  replace (- (1)) with (-1) by ring. replace (- 0) with 0 by ring. auto.
Qed.

(** ** operations that raise *)
Lemma raise_early : forall asort l m h e h', motion_matrix m = None -> apply_motion asort l m h = Raise e h' -> h' = h /\ e = ValueError.
Proof. intros asort l m h e h' M H. unfold apply_motion in H. rewrite M in H. injection H as <- <-. auto. Qed.
Lemma rejected : forall m, motion_matrix m = None <->
  match m with
  | Scale x y z => x < 0 \/ y < 0 \/ z < 0
  | RotX _ u | RotY _ u | RotZ _ u => u = OtherUnit
  | _ => False
  end.
Proof.
  intros [x y z|x y z|a u|a u|a u|m]; simpl; try (split; [discriminate|tauto]).
  - destruct (rltb x 0) eqn:A; [apply rltb_true in A; simpl; split; auto|].
    destruct (rltb y 0) eqn:B; [apply rltb_true in B; simpl; split; auto|].
    destruct (rltb z 0) eqn:C; [apply rltb_true in C; simpl; split; auto|].
    simpl. apply rltb_false in A, B, C. split; [discriminate|lra].
  - destruct u; simpl; split; auto; discriminate.
  - destruct u; simpl; split; auto; discriminate.
  - destruct u; simpl; split; auto; discriminate.
Qed.
