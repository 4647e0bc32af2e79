(** * WorldFacts3: fuel, movement algebra, isometries never raise, pin *)
From Coq Require Import Reals List Bool ZArith Lra Lia.
Import ListNotations.
From Verif Require Import XR XRFacts Arr Lin LinFacts Prim Csg Surf SpecGeom SpecTree World SpecWorld WorldFacts WorldFacts2 CsgProps.
Open Scope R_scope.

(** ** the depth bound is enough *)
Fixpoint enough (n : nat) (h : heap) (l : loc) : Prop :=
  match n with
  | O => False
  | S n => forall o, get h l = Some o -> forall c, In c (children (o_kind o)) -> enough n h c
  end.
Lemma enough_sks : forall n h h' l, sks h h' -> enough n h l -> enough n h' l.
Proof.
  induction n as [|n IH]; intros h h' l S E; [destruct E|]. intros o' G' c I.
  destruct (hrel_get_back _ _ _ _ _ S G') as (o & G & (_ & K & _)). rewrite K in I. eapply IH; [exact S|]. eapply E; eauto.
Qed.
Lemma enough_sks_back : forall n h h' l, sks h h' -> enough n h' l -> enough n h l.
Proof.
  induction n as [|n IH]; intros h h' l S E; [destruct E|]. intros o G c I.
  destruct (proj2 (proj2 S) _ _ G) as (o' & G' & (_ & K & _)). rewrite <- K in I. eapply IH; [exact S|]. eapply E; eauto.
Qed.
Lemma transform_enough : forall asort n l t h h', transform asort n l t h = Ok h' -> enough n h l.
Proof.
  intros asort n. induction n as [|n IH]; intros l t h h' H; [discriminate|]. intros o G.
  destruct (transform_unfold _ _ _ _ _ _ _ H G) as (n' & h1 & E & A & Ch). injection E as <-.
  assert (S1 : sks h h1) by (apply (append_own_sks asort l t); rewrite A; auto). clear A H G.
  revert h1 Ch S1. induction (children (o_kind o)) as [|c cs IHc]; intros h1 Ch S1 c' [].
  - subst c'. simpl in Ch. destruct (transform asort n c t h1) as [h2|e h2|] eqn:T; try discriminate.
    eapply enough_sks_back; eauto.
  - simpl in Ch. destruct (transform asort n c t h1) as [h2|e h2|] eqn:T; try discriminate. simpl in Ch.
    apply (IHc h2); auto. eapply sks_trans; eauto. apply (transform_sks asort n c t). rewrite T; auto.
Qed.
Lemma enough_stable : forall n h l, enough n h l -> forall m, (n <= m)%nat -> parts_upto m h l = parts_upto n h l.
Proof.
  induction n as [|n IH]; intros h l E m L; [destruct E|]. destruct m as [|m]; [lia|]. simpl. f_equal.
  destruct (get h l) as [o|] eqn:G; auto. specialize (E o G). revert E.
  induction (children (o_kind o)) as [|c cs IHc]; intro E; simpl; auto. f_equal.
  - apply IH; [apply E; left; auto|lia].
  - apply IHc. intros; apply E; right; auto.
Qed.
Lemma flat_map_length_in : forall A B (f : A -> list B) l a, In a l -> (length (f a) <= length (flat_map f l))%nat.
Proof. induction l as [|b l IH]; intros a []; simpl; rewrite app_length; [subst|apply IH in H]; lia. Qed.
Lemma parts_shorter : forall n h l, enough n h l -> forall x, In x (parts_upto n h l) ->
  forall m, (length (parts_upto m h x) <= length (parts_upto n h l))%nat.
Proof.
  induction n as [|n IH]; intros h l E x I m; [destruct E|]. simpl in I. destruct I as [<-|I].
  - (* any depth gives at most the stable list *)
    clear IH. revert l E m. generalize (S n). intro k. induction k as [|k IHk]; intros l E m; [destruct E|].
    destruct m as [|m]; [simpl; lia|]. simpl. apply le_n_S. destruct (get h l) as [o|] eqn:G; auto.
    specialize (E o G). revert E. induction (children (o_kind o)) as [|c cs IHc]; intro E; simpl; auto.
    rewrite !app_length. specialize (IHk c (E c (or_introl eq_refl)) m).
    specialize (IHc (fun c' I => E c' (or_intror I))). lia.
  - simpl. destruct (get h l) as [o|] eqn:G; [|destruct I]. apply in_flat_map in I. destruct I as (c & Ic & Ix).
    specialize (IH h c (E o G c Ic) x Ix m). pose proof (flat_map_length_in _ _ (parts_upto n h) _ _ Ic). lia.
Qed.
Lemma enough_self_once : forall n h l, enough n h l -> count_occ Nat.eq_dec (parts_upto n h l) l = 1%nat.
Proof.
  intros [|n] h l E; [destruct E|]. simpl. destruct (Nat.eq_dec l l) as [_|N]; [|congruence]. f_equal.
  destruct (get h l) as [o|] eqn:G; auto. apply count_occ_not_In. intro I. apply in_flat_map in I.
  destruct I as (c & Ic & Ix). pose proof (parts_shorter n h c (E o G c Ic) l Ix (S n)) as L. simpl in L. rewrite G in L.
  pose proof (flat_map_length_in _ _ (parts_upto n h) _ _ Ic). lia.
Qed.
Lemma transform_self_once : forall asort n l t h h', transform asort n l t h = Ok h' ->
  count_occ Nat.eq_dec (parts_upto n h l) l = 1%nat.
Proof. intros. eapply enough_self_once, transform_enough; eauto. Qed.

(** ** acyclic heaps *)
Definition acyclic (h : heap) : Prop :=
  forall x o c, get h x = Some o -> In c (children (o_kind o)) -> (c < x)%nat.
Lemma acyclic_kws : forall h h', kws h h' -> acyclic h -> acyclic h'.
Proof. intros h h' S A x o' c G' I. destruct (hrel_get_back _ _ _ _ _ S G') as (o & G & [K _]). rewrite K in I. eauto. Qed.
Definition no_set (c : call) : Prop := match c with CSetMembers _ _ => False | _ => True end.
Lemma alloc_acyclic : forall k h, acyclic h -> (forall c, In c (children k) -> (c < length (h_objs h))%nat) -> acyclic (alloc k h).
Proof.
  intros k h A K x o c G I. destruct (get_alloc _ _ _ _ G) as [G1|(-> & ->)]; [eauto|]. cbn [o_kind] in I. unfold fresh. auto.
Qed.
Lemma run_call_acyclic : forall asort c h h', no_set c -> acyclic h -> run_call asort c h = Ok h' -> acyclic h'.
Proof.
  intros asort c h h' N A H. destruct c as [|p m|ms|g ms|op a b|l o|l|l]; cbn [run_call] in H.
  - injection H as <-. apply alloc_acyclic; auto. intros c [].
  - unfold new_surface in H. destruct (prim_init p); [|discriminate]. injection H as <-.
    intros x o c G I. rewrite !get_upd in G. destruct (Nat.eqb_spec x (fresh h)) as [->|Nx].
    + rewrite get_alloc_new in G. simpl in G. injection G as <-. destruct I.
    + destruct (get_alloc _ _ _ _ G) as [G1|(K & _)]; [eauto|contradiction].
  - unfold new_group in H. destruct (valid_locs h ms) eqn:V; [|discriminate]. injection H as <-. apply alloc_acyclic; auto.
    intros c I. cbn [children] in I. unfold valid_locs in V. rewrite forallb_forall in V. specialize (V _ I). apply Nat.ltb_lt in V. auto.
  - destruct N.
  - destruct (new_csg_shape _ _ _ _ _ _ H) as (La & Lb & _ & _ & Len & _ & (on & Gn & Kn & _) & C).
    intros x o c G I. destruct (Nat.eq_dec x (fresh h)) as [->|Nx].
    + rewrite Gn in G. injection G as <-. rewrite Kn in I. destruct I as [<-|[<-|[]]]; auto.
    + assert (Lx : (x < length (h_objs h))%nat) by (apply get_lt in G; unfold fresh in Nx; lia).
      destruct (get_some _ _ Lx) as [o1 G1]. destruct (C _ _ G1) as (o2 & G2 & K & _). rewrite G in G2. injection G2 as <-.
      rewrite K in I. eauto.
  - unfold apply_motion in H. destruct (motion_matrix o); [|discriminate].
    eapply acyclic_kws; [apply sks_kws, (transform_sks asort (depth h) l m); rewrite H; reflexivity|auto].
  - eapply acyclic_kws; [apply (set_normals_kws (depth h) (-1) l); rewrite H; reflexivity|auto].
  - eapply acyclic_kws; [apply (set_normals_kws (depth h) 1 l); rewrite H; reflexivity|auto].
Qed.
Lemma run_prog_acyclic : forall asort cs h h', Forall no_set cs -> acyclic h -> run_prog asort cs h = Ok h' -> acyclic h'.
Proof.
  intros asort cs. induction cs as [|c cs IH]; intros h h' F A H.
  - injection H as <-. auto.
  - inversion F; subst. simpl in H. destruct (run_call asort c h) as [h1|e h1|] eqn:E; try discriminate. apply (IH h1); auto.
    eapply run_call_acyclic; eauto.
Qed.
Lemma empty_acyclic : acyclic empty_heap.
Proof. intros [|x] o c G; discriminate. Qed.

Lemma append_own_no_diverge : forall asort l t h, append_own asort l t h <> Diverge.
Proof.
  intros asort l t h. unfold append_own. destruct (get h l) as [o|]; [|discriminate].
  generalize (upd h l (with_world (mmul t (o_world o)))). induction (o_watch o) as [|w ws IH]; intro h0; [discriminate|].
  simpl. destruct (run_handler asort w h0) as [h1|e h1|] eqn:R; simpl; auto; try discriminate.
  exfalso. destruct w as [x|x|x]; simpl in R; destruct (get h0 x) as [ox|]; try discriminate.
  - destruct (rltb _ _); try discriminate. destruct (minv _); discriminate.
  - destruct (o_kind ox); discriminate.
  - destruct (o_kind ox); try discriminate. destruct (box_of h0 l0); [destruct (box_of h0 r)|]; discriminate.
Qed.
Lemma transform_no_diverge : forall asort n l t h, acyclic h -> (l < n)%nat -> transform asort n l t h <> Diverge.
Proof.
  intros asort n. induction n as [|n IH]; intros l t h A L; [lia|]. simpl.
  destruct (get h l) as [o|] eqn:G; [|discriminate].
  destruct (append_own asort l t h) as [h1|e h1|] eqn:E; simpl; [|discriminate|exfalso; eapply append_own_no_diverge; eauto].
  assert (S1 : sks h h1) by (apply (append_own_sks asort l t); rewrite E; auto).
  assert (C : forall c, In c (children (o_kind o)) -> (c < n)%nat) by (intros c I; specialize (A _ _ _ G I); lia).
  pose proof (acyclic_kws _ _ (sks_kws _ _ S1) A) as A1. clear A G E S1. revert h1 A1 C.
  induction (children (o_kind o)) as [|c cs IHc]; intros h1 A1 C; [discriminate|]. simpl.
  destruct (transform asort n c t h1) as [h2|e h2|] eqn:T; simpl; [|discriminate|].
  - apply IHc; [|intros; apply C; right; auto]. eapply acyclic_kws; [|exact A1]. apply sks_kws, (transform_sks asort n c t). rewrite T; auto.
  - intros _. apply (IH c t h1); auto. apply C; left; auto.
Qed.
Lemma set_normals_no_diverge : forall n k l h, acyclic h -> (l < n)%nat -> set_normals n k l h <> Diverge.
Proof.
  induction n as [|n IH]; intros k l h A L; [lia|]. simpl. destruct (get h l) as [o|] eqn:G; [|discriminate].
  destruct (o_kind o) as [|p m|op a b|ms] eqn:K; try discriminate.
  assert (La : (a < n)%nat) by (assert (a < l)%nat by (eapply A; eauto; rewrite K; simpl; auto); lia).
  assert (Lb : (b < n)%nat) by (assert (b < l)%nat by (eapply A; eauto; rewrite K; simpl; auto); lia).
  destruct (set_normals n k a h) as [h1|e h1|] eqn:E; simpl; [|discriminate|].
  - apply IH; auto. eapply acyclic_kws; [|exact A]. apply (set_normals_kws n k a). rewrite E; auto.
  - intros _. apply (IH k a h); auto.
Qed.
Lemma get_depth : forall h l o, get h l = Some o -> (l < depth h)%nat.
Proof. intros h l o G. apply get_lt in G. unfold depth. lia. Qed.

Lemma run_call_no_diverge : forall asort c h, acyclic h -> run_call asort c h <> Diverge.
Proof.
  intros asort c h A. destruct c as [|p m|ms|g ms|op a b|l o|l|l]; cbn [run_call]; try discriminate.
  - unfold new_surface. destruct (prim_init p); discriminate.
  - unfold new_group. destruct (valid_locs h ms); discriminate.
  - unfold group_set. destruct (get h g) as [o|]; [|discriminate]. destruct (o_kind o); try discriminate. destruct (valid_locs h ms); discriminate.
  - unfold new_csg. destruct (valid_locs h [a; b]) eqn:V; [|discriminate]. simpl negb. cbv iota zeta.
    apply valid_two in V. destruct V as [Va Vb]. set (n := fresh h). assert (En : n = length (h_objs h)) by reflexivity.
    set (h2 := upd _ n _).
    assert (A2 : acyclic h2).
    { intros x o c G I. unfold h2 in G. rewrite get_upd in G. destruct (Nat.eqb_spec x n) as [->|N].
      - unfold n in G. rewrite get_alloc_new in G. injection G as <-. destruct I as [<-|[<-|[]]]; lia.
      - destruct (get_alloc _ _ _ _ G) as [G1|(Kx & _)]; [eauto|contradiction]. }
    destruct (attach_to a n h2) as [h3|e h3|] eqn:E3; simpl; try discriminate;
      [|unfold attach_to in E3; destruct (get h2 a) as [oa|]; [destruct (get h2 n); [destruct (o_kind oa)|]|]; discriminate].
    destruct (attach_to b n h3) as [h4|e h4|] eqn:E4; simpl; try discriminate;
      [|unfold attach_to in E4; destruct (get h3 b) as [ob|]; [destruct (get h3 n); [destruct (o_kind ob)|]|]; discriminate].
    assert (EX : exts h2 h4).
    { eapply exts_trans; [apply (attach_exts a n); rewrite E3; reflexivity|apply (attach_exts b n); rewrite E4; reflexivity]. }
    assert (A4 : acyclic h4).
    { intros x o c G I. destruct (hrel_get_back _ _ _ _ _ EX G) as (o1 & G1 & (_ & K & _)). rewrite K in I. eauto. }
    assert (L4 : (b < depth h4)%nat).
    { destruct EX as (_ & L & _). unfold depth. rewrite L. unfold h2. rewrite len_upd, len_alloc. lia. }
    assert (B : forall r, r <> Diverge -> bind r (fun h5 => run_handler asort (HCsgBox n) h5) <> Diverge).
    { intros [h5|e h5|] Hr; simpl; try discriminate; auto. destruct (get h5 n) as [o5|]; [|discriminate].
      destruct (o_kind o5); try discriminate. destruct (box_of h5 l); [destruct (box_of h5 r)|]; discriminate. }
    apply B. destruct op; try discriminate. exact (set_normals_no_diverge (depth h4) (-1) b h4 A4 L4).
  - unfold apply_motion. destruct (motion_matrix o); [|discriminate].
    destruct (get h l) as [ol|] eqn:G; [apply transform_no_diverge; auto; eapply get_depth; eauto|].
    unfold depth. simpl. rewrite G. discriminate.
  - destruct (get h l) as [ol|] eqn:G; [apply set_normals_no_diverge; auto; eapply get_depth; eauto|]. unfold depth. simpl. rewrite G. discriminate.
  - destruct (get h l) as [ol|] eqn:G; [apply set_normals_no_diverge; auto; eapply get_depth; eauto|]. unfold depth. simpl. rewrite G. discriminate.
Qed.

(** ** movement matrices *)
Definition isometry (t : mat) : Prop :=
  affine t /\ (forall v, vw v = 0 -> vdot (mapply t v) (mapply t v) = vdot v v) /\ mdet t <> 0.

Lemma sc : forall a, sin a * sin a + cos a * cos a = 1.
Proof. intro a. pose proof (sin2_cos2 a) as H. unfold Rsqr in H. exact H. Qed.
Ltac matcalc := unfold mapply, vdot, point, vector, vadd, vscale, mmul, mtrans; cbn [row0 row1 row2 row3 vx vy vz vw].

Definition rigid (o : motion) : Prop := match o with Move _ _ _ | RotX _ _ | RotY _ _ | RotZ _ _ => True | _ => False end.
Lemma rotx_iso : forall s c, s * s + c * c = 1 -> isometry (M4 (V4 1 0 0 0) (V4 0 c (- s) 0) (V4 0 s c 0) (V4 0 0 0 1)).
Proof.
  intros s c E. split; [reflexivity|]. split.
  - intros [a b d w] H. cbn [vw] in H. subst w. matcalc.
    transitivity (a * a + (s * s + c * c) * (b * b) + (s * s + c * c) * (d * d)); [ring|rewrite E; ring].
  - unfold mdet; cbn [row0 row1 row2 row3 vx vy vz vw]. intro H. assert (s * s + c * c = 0) by (rewrite <- H; ring). lra.
Qed.
Lemma roty_iso : forall s c, s * s + c * c = 1 -> isometry (M4 (V4 c 0 s 0) (V4 0 1 0 0) (V4 (- s) 0 c 0) (V4 0 0 0 1)).
Proof.
  intros s c E. split; [reflexivity|]. split.
  - intros [a b d w] H. cbn [vw] in H. subst w. matcalc.
    transitivity (b * b + (s * s + c * c) * (a * a) + (s * s + c * c) * (d * d)); [ring|rewrite E; ring].
  - unfold mdet; cbn [row0 row1 row2 row3 vx vy vz vw]. intro H. assert (s * s + c * c = 0) by (rewrite <- H; ring). lra.
Qed.
Lemma rotz_iso : forall s c, s * s + c * c = 1 -> isometry (M4 (V4 c (- s) 0 0) (V4 s c 0 0) (V4 0 0 1 0) (V4 0 0 0 1)).
Proof.
  intros s c E. split; [reflexivity|]. split.
  - intros [a b d w] H. cbn [vw] in H. subst w. matcalc.
    transitivity (d * d + (s * s + c * c) * (a * a) + (s * s + c * c) * (b * b)); [ring|rewrite E; ring].
  - unfold mdet; cbn [row0 row1 row2 row3 vx vy vz vw]. intro H. assert (s * s + c * c = 0) by (rewrite <- H; ring). lra.
Qed.
Lemma move_iso : forall x y z, isometry (M4 (V4 1 0 0 x) (V4 0 1 0 y) (V4 0 0 1 z) (V4 0 0 0 1)).
Proof.
  intros. split; [reflexivity|]. split.
  - intros [a b d w] H. cbn [vw] in H. subst w. matcalc. ring.
  - unfold mdet; cbn [row0 row1 row2 row3 vx vy vz vw]. intro H. ring_simplify in H. lra.
Qed.
Lemma rigid_iso : forall o t, rigid o -> motion_matrix o = Some t -> isometry t.
Proof.
  intros [x y z|x y z|a u|a u|a u|m] t R H; try destruct R; simpl in H.
  - injection H as <-. apply move_iso.
  - destruct u; simpl in H; try discriminate; injection H as <-; apply rotx_iso, sc.
  - destruct u; simpl in H; try discriminate; injection H as <-; apply roty_iso, sc.
  - destruct u; simpl in H; try discriminate; injection H as <-; apply rotz_iso, sc.
Qed.

(** ** isometries never raise *)
Definition all_affine (h : heap) : Prop := forall x o, get h x = Some o -> affine (o_world o).
Definition fine (o : obj) : Prop :=
  affine (o_world o) /\ dir_tolerance <= vnorm (mapply (o_world o) obj_direction) /\ mdet (o_world o) <> 0.
Definition all_fine (h : heap) : Prop := forall x o, get h x = Some o -> fine o.
Lemma good_fine : forall h, all_good h -> all_affine h -> all_fine h.
Proof.
  intros h G A x o H. destruct (G x o H) as (_ & (I & _ & T & _) & _). split; [eauto|]. split; auto. eapply is_inverse_det; eauto.
Qed.
Lemma fine_iso : forall t o, isometry t -> fine o -> fine (with_world (mmul t (o_world o)) o).
Proof.
  intros t o (A & I & D) (A' & T & D'). unfold fine; cbn [with_world o_world]. split; [apply affine_mmul; auto|]. split.
  - rewrite mapply_mmul. unfold vnorm at 1. rewrite I; [exact T|]. rewrite affine_w by auto. reflexivity.
  - rewrite mdet_mmul. apply Rmult_integral_contrapositive_currified; auto.
Qed.
Definition handler_fits (h : heap) (w : handler) : Prop :=
  match w with
  | HMat x => exists o, get h x = Some o
  | HLeafBox x => exists o p m, get h x = Some o /\ o_kind o = KSurf p m
  | HCsgBox x => exists o op a b oa ob, get h x = Some o /\ o_kind o = KCsg op a b /\
      get h a = Some oa /\ is_shape (o_kind oa) /\ get h b = Some ob /\ is_shape (o_kind ob)
  end.
Lemma wf_handler_fits : forall h x o w, wf h -> get h x = Some o -> In w (o_watch o) -> handler_fits h w.
Proof.
  intros h x o w W G I.
  assert (CS : forall y oy op a b, get h y = Some oy -> o_kind oy = KCsg op a b -> handler_fits h (HCsgBox y)).
  { intros y oy op a b Gy Ky. pose proof (W y oy Gy) as X. unfold wfx in X. rewrite Ky in X.
    destruct X as (_ & _ & _ & (oa & Ga & Sa & _) & (ob & Gb & Sb & _)). simpl. eauto 15. }
  assert (R : forall rest, Forall (watcher h x) rest -> In w rest -> handler_fits h w).
  { intros rest F J. rewrite Forall_forall in F. destruct (F _ J) as (y & E & (oy & op & a & b & Gy & Ky & _)).
    destruct E as [-> | ->]; [simpl; eauto|eapply CS; eauto]. }
  pose proof (W x o G) as X. unfold wfx in X. destruct (o_kind o) as [|p m|op a b|ms] eqn:K.
  - rewrite X in I. destruct I as [<-|[]]. simpl; eauto.
  - destruct X as (rest & E & F). rewrite E in I. destruct I as [<-|[<-|I]]; simpl; eauto.
  - destruct X as ((rest & E & F) & _). rewrite E in I. destruct I as [<-|[<-|I]]; [simpl; eauto|eapply CS; eauto|eauto].
  - rewrite X in I. destruct I as [<-|[]]. simpl; eauto.
Qed.
Lemma handler_fits_sks : forall h h' w, sks h h' -> handler_fits h w -> handler_fits h' w.
Proof.
  intros h h' w (_ & _ & C) F. destruct w as [x|x|x]; simpl in *.
  - destruct F as (o & G). destruct (C _ _ G) as (o' & G' & _). eauto.
  - destruct F as (o & p & m & G & K). destruct (C _ _ G) as (o' & G' & (_ & K' & _)). exists o', p, m. split; auto. congruence.
  - destruct F as (o & op & a & b & oa & ob & G & K & Ga & Sa & Gb & Sb).
    destruct (C _ _ G) as (o' & G' & (_ & K' & _)). destruct (C _ _ Ga) as (oa' & Ga' & (_ & Ka' & _)). destruct (C _ _ Gb) as (ob' & Gb' & (_ & Kb' & _)).
    exists o', op, a, b, oa', ob'. rewrite K', Ka', Kb'. auto 10.
Qed.
Lemma run_handler_fine : forall asort w h, all_fine h -> handler_fits h w -> exists h', run_handler asort w h = Ok h'.
Proof.
  intros asort [x|x|x] h F H; simpl in *.
  - destruct H as (o & G). rewrite G. destruct (F x o G) as (_ & T & D). apply rltb_false in T. rewrite T.
    destruct (minv (o_world o)) eqn:M; eauto. apply minv_none in M. contradiction.
  - destruct H as (o & p & m & G & K). rewrite G, K. eauto.
  - destruct H as (o & op & a & b & oa & ob & G & K & Ga & Sa & Gb & Sb). rewrite G, K.
    unfold box_of. rewrite Ga, Gb. destruct (o_kind oa); try destruct Sa; destruct (o_kind ob); try destruct Sb; eauto.
Qed.
Lemma wsk_fine : forall h h', wsk h h' -> all_fine h -> all_fine h'.
Proof. intros h h' S F x o' G'. destruct (hrel_get_back _ _ _ _ _ S G') as (o & G & [_ W]). unfold fine. rewrite W. apply (F x o G). Qed.
Lemma run_all_fine : forall asort ws h, all_fine h -> (forall w, In w ws -> handler_fits h w) -> exists h', run_all asort ws h = Ok h'.
Proof.
  intros asort ws. induction ws as [|w ws IH]; intros h F H; [simpl; eauto|].
  destruct (run_handler_fine asort w h F (H w (or_introl eq_refl))) as (h1 & E). simpl. rewrite E. simpl.
  assert (S : wsk h h1) by (apply (run_handler_wsk asort w); rewrite E; auto).
  apply IH; [eapply wsk_fine; eauto|]. intros w' I. eapply handler_fits_sks; [apply wsk_sks, S|]. apply H; right; auto.
Qed.
Lemma append_own_fine : forall asort l t h o, wf h -> all_fine h -> isometry t -> get h l = Some o ->
  exists h', append_own asort l t h = Ok h' /\ all_fine h'.
Proof.
  intros asort l t h o W F I G. unfold append_own. rewrite G. set (h0 := upd h l _).
  assert (F0 : all_fine h0).
  { intros x o' G'. unfold h0 in G'. rewrite get_upd in G'. destruct (Nat.eqb_spec x l) as [->|N]; [|eauto].
    rewrite G in G'. injection G' as <-. apply fine_iso; eauto. }
  assert (S0 : sks h h0) by (apply hrel_upd; intros; [apply skel_refl|repeat split]).
  destruct (run_all_fine asort (o_watch o) h0 F0) as (h' & E).
  - intros w Iw. eapply handler_fits_sks; [exact S0|]. eapply wf_handler_fits; eauto.
  - exists h'. split; auto. eapply wsk_fine; [|exact F0]. apply (run_all_wsk asort (o_watch o)). rewrite E. auto.
Qed.
(** every child listed anywhere exists *)
Definition children_exist (h : heap) : Prop := forall x o c, get h x = Some o -> In c (children (o_kind o)) -> exists oc, get h c = Some oc.
Lemma transform_fine : forall asort n l t h o, wf h -> all_fine h -> children_exist h -> isometry t -> enough n h l -> get h l = Some o ->
  exists h', transform asort n l t h = Ok h' /\ all_fine h'.
Proof.
  intros asort n. induction n as [|n IH]; intros l t h o W F CE I E G; [destruct E|]. simpl. rewrite G.
  destruct (append_own_fine asort l t h o W F I G) as (h1 & A & F1). rewrite A. simpl.
  assert (S1 : sks h h1) by (apply (append_own_sks asort l t); rewrite A; auto).
  assert (Ech : forall c, In c (children (o_kind o)) -> enough n h c /\ exists oc, get h c = Some oc) by (intros; split; eauto).
  clear A G E. revert h1 F1 S1 Ech. induction (children (o_kind o)) as [|c cs IHc]; intros h1 F1 S1 Ech; [simpl; eauto|]. simpl.
  destruct (Ech c (or_introl eq_refl)) as (En & oc & Gc). destruct (proj2 (proj2 S1) _ _ Gc) as (oc1 & Gc1 & _).
  destruct (IH c t h1 oc1) as (h2 & T & F2); auto.
  - eapply wf_kws; [apply sks_kws, S1|auto].
  - intros x ox c' Gx Ix. destruct (hrel_get_back _ _ _ _ _ S1 Gx) as (o2 & G2 & (_ & K & _)). rewrite K in Ix.
    destruct (CE _ _ _ G2 Ix) as (oc2 & Gc2). destruct (proj2 (proj2 S1) _ _ Gc2) as (oc3 & Gc3 & _). eauto.
  - eapply enough_sks; eauto.
  - rewrite T. simpl. apply IHc; auto. eapply sks_trans; [exact S1|]. apply (transform_sks asort n c t). rewrite T. auto.
    intros; apply Ech; right; auto.
Qed.
Lemma acyclic_enough : forall h, acyclic h -> forall n l, (l < n)%nat -> enough n h l.
Proof.
  intros h A. induction n as [|n IH]; intros l L; [lia|]. intros o G c I. apply IH. specialize (A _ _ _ G I). lia.
Qed.
Lemma acyclic_children : forall h, acyclic h -> children_exist h.
Proof. intros h A x o c G I. specialize (A _ _ _ G I). apply get_some. apply get_lt in G. lia. Qed.

Definition affine_call (c : call) : Prop := match c with CMotion _ (Transform m) => affine m | _ => True end.
Lemma motion_affine : forall o t, match o with Transform m => affine m | _ => True end -> motion_matrix o = Some t -> affine t.
Proof.
  intros [x y z|x y z|a u|a u|a u|m] t A H; simpl in H.
  - injection H as <-. reflexivity.
  - destruct (_ || _)%bool; [discriminate|]. injection H as <-. reflexivity.
  - destruct u; simpl in H; try discriminate; injection H as <-; reflexivity.
  - destruct u; simpl in H; try discriminate; injection H as <-; reflexivity.
  - destruct u; simpl in H; try discriminate; injection H as <-; reflexivity.
  - injection H as <-. auto.
Qed.
Lemma power_affine : forall n t, affine t -> affine (power n t).
Proof. induction n; intros t A; simpl; [apply affine_mid|apply affine_mmul; auto]. Qed.
Lemma run_call_affine : forall asort c h h', affine_call c -> all_affine h -> run_call asort c h = Ok h' -> all_affine h'.
Proof.
  assert (AL : forall k h, all_affine h -> all_affine (alloc k h)).
  { intros k h A x o G. destruct (get_alloc _ _ _ _ G) as [G1|(-> & ->)]; [eauto|apply affine_mid]. }
  assert (EX : forall h h', exts h h' -> all_affine h -> all_affine h').
  { intros h h' E A x o' G'. destruct (hrel_get_back _ _ _ _ _ E G') as (o & G & (_ & _ & W & _)). rewrite W. eauto. }
  assert (UP : forall h l f, (forall o, o_world (f o) = o_world o) -> all_affine h -> all_affine (upd h l f)).
  { intros h l f Hf A x o G. rewrite get_upd in G. destruct (x =? l); [|eauto]. destruct (get h x) as [o1|] eqn:G1; [|discriminate].
    injection G as <-. rewrite Hf. eauto. }
  intros asort c h h' N A H. destruct c as [|p m|ms|g ms|op a b|l o|l|l]; cbn [run_call] in H.
  - injection H as <-. auto.
  - unfold new_surface in H. destruct (prim_init p); [|discriminate]. injection H as <-. apply UP; [auto|]. apply UP; auto.
  - unfold new_group in H. destruct (valid_locs h ms); [|discriminate]. injection H as <-. auto.
  - unfold group_set in H. destruct (get h g) as [o|]; [|discriminate]. destruct (o_kind o); try discriminate.
    destruct (valid_locs h ms); [|discriminate]. injection H as <-. apply UP; auto.
  - destruct (new_csg_exts asort op a b h h') as [->|X]; [rewrite H; auto|auto|]. apply (EX _ _ X). unfold csg_start. apply UP; auto.
  - unfold apply_motion in H. destruct (motion_matrix o) as [t|] eqn:M; [|discriminate]. apply transform_effect in H.
    intros x o' G'. destruct (hrel_get_back _ _ _ _ _ H G') as (o1 & G1 & [_ W]). rewrite W. apply affine_mmul; [|eauto].
    apply power_affine. eapply motion_affine; eauto.
  - apply (EX h); auto. apply (set_normals_exts (depth h) (-1) l). rewrite H; auto.
  - apply (EX h); auto. apply (set_normals_exts (depth h) 1 l). rewrite H; auto.
Qed.
Lemma run_prog_affine : forall asort cs h h', Forall affine_call cs -> all_affine h -> run_prog asort cs h = Ok h' -> all_affine h'.
Proof.
  intros asort cs. induction cs as [|c cs IH]; intros h h' F A H.
  - injection H as <-. auto.
  - inversion F; subst. simpl in H. destruct (run_call asort c h) as [h1|e h1|] eqn:E; try discriminate. apply (IH h1); auto.
    eapply run_call_affine; eauto.
Qed.
Lemma empty_affine : all_affine empty_heap.
Proof. intros [|x] o G; discriminate. Qed.

Lemma rigid_succeeds : forall asort cs h l o m t, run_prog asort cs empty_heap = Ok h -> Forall no_set cs -> Forall affine_call cs ->
  get h l = Some o -> rigid m -> motion_matrix m = Some t -> exists h', apply_motion asort l m h = Ok h'.
Proof.
  intros asort cs h l o m t H N A G R M. unfold apply_motion. rewrite M.
  pose proof (run_prog_acyclic _ _ _ _ N empty_acyclic H) as AC.
  destruct (transform_fine asort (depth h) l t h o) as (h' & T & _).
  - eapply wf_run_prog; eauto using wf_empty.
  - apply good_fine; [eapply run_prog_good; eauto using empty_good|eapply run_prog_affine; eauto using empty_affine].
  - apply acyclic_children; auto.
  - eapply rigid_iso; eauto.
  - apply acyclic_enough; auto. eapply get_depth; eauto.
  - auto.
  - eauto.
Qed.
