(** * SheetFacts2: what a ray sees of a plate with holes and an outline *)
From Coq Require Import Reals Lra Lia List Bool ZArith Sorted Permutation Arith.
Import ListNotations.
From Verif Require Import XR XRFacts Arr ArrFacts Lin LinFacts Prim Csg SpecCsg CsgFacts CsgProps Surf SpecGeom SpecTree TreeFacts BoxFacts SurfFacts SeenFacts
  ComponentOptics Crossing Tracer SpecStop StopFacts StopFacts2 Chords SpecSheet SheetFacts.
Open Scope R_scope.

Section Plate.
  Variable asort : list xr -> list nat.
  Hypothesis AS : argsort_ok asort.

  Lemma column_ends : forall s r, tree_ok s -> world_ray r -> good_ray s r -> ends (fst (shape_intersect asort s r)).
  Proof.
    induction s as [f b|i op b s1 IH1 s2 IH2]; intros r T W G.
    - cbn [shape_intersect fst]. destruct (surf_chord f r T W G) as [(t0 & t1 & -> & _)|[-> _]]; intros x [<-|[<-|[]]]; eauto.
    - destruct T as [T1 T2], G as (_ & G1 & G2). cbn [shape_intersect]. destruct (box_hit b r).
      + specialize (IH1 r T1 W G1). specialize (IH2 r T2 W G2).
        destruct (shape_columns asort AS s1 r) as (_ & L1 & L1'), (shape_columns asort AS s2 r) as (_ & L2 & L2').
        destruct (shape_intersect asort s1 r) as [lh ls], (shape_intersect asort s2 r) as [rh rs]. cbn [fst snd] in *.
        intros x X. apply (Permutation_in _ (csg_combine_hits_perm xsle PInf asort AS op lh ls rh rs)) in X.
        assert (K : forall m v y, In y (where_fill m v PInf) -> y = PInf \/ In y v).
        { unfold where_fill. intros m v y Y. apply in_map_iff in Y. destruct Y as ([b0 z] & <- & Z). cbn [fst snd]. destruct b0; [right; apply in_combine_r in Z; exact Z|left; reflexivity]. }
        unfold array_csg_unsorted in X. apply K in X. destruct X as [->|X]; [left; reflexivity|].
        unfold gather in X. apply in_map_iff in X. destruct X as (k & <- & _). destruct (nth_in_or_default k (lh ++ rh) PInf) as [I|I]; [|left; exact I].
        apply in_app_or in I. destruct I; auto.
      + intros x X. apply repeat_spec in X. auto.
  Qed.
  Lemma rows_even : forall s, Nat.odd (shape_rows s) = false.
  Proof. induction s; cbn [shape_rows]; [reflexivity|]. rewrite Nat.odd_add, IHs1, IHs2. reflexivity. Qed.
  (** what the column of a hole says about the stretch before [q] *)
  Lemma before_is : forall h r q, tree_ok h -> boxes_current h -> boxes_fit h -> world_ray r -> good_ray h r ->
    exists e, 0 < e /\ forall u, q - e <= u < q -> (inside h (ray_at r u) <-> inside_at xsle (Fin q) (fst (shape_intersect asort h r)) = true).
  Proof.
    intros h r q T B F W G. destruct (shape_inside asort AS h r T B F W G) as [L H].
    destruct (Crossing.gap (L ++ finites (fst (shape_intersect asort h r))) q) as (e & E & N). exists (e / 2). split; [lra|]. intros u U.
    assert (NU : forall t, In t (L ++ finites (fst (shape_intersect asort h r))) -> ~ (u <= t < q)).
    { intros t I [A C]. specialize (N t I ltac:(lra)). rewrite Rabs_left in N by lra. lra. }
    rewrite <- H.
    - unfold inside_at. rewrite (below_flat _ u q); [reflexivity|lra|]. intros t I. apply NU. apply in_or_app. right. apply in_finites. exact I.
    - intro I. apply (NU u); [apply in_or_app; left; exact I|lra].
  Qed.
  Lemma before_or : forall h r q, tree_ok h -> boxes_current h -> boxes_fit h -> world_ray r -> good_ray h r ->
    just_before (fun u => inside h (ray_at r u)) q \/ just_before (fun u => ~ inside h (ray_at r u)) q.
  Proof.
    intros h r q T B F W G. destruct (before_is h r q T B F W G) as (e & E & H).
    destruct (inside_at xsle (Fin q) (fst (shape_intersect asort h r))); [left|right]; exists e; (split; [exact E|]); intros u U; specialize (H u U); intuition discriminate.
  Qed.
  Lemma before_holds : forall (P Q : R -> Prop) q, just_before P q -> just_before Q q -> exists u, u < q /\ P u /\ Q u.
  Proof.
    intros P Q q (e & E & H) (d & D & K). exists (q - Rmin e d). pose proof (Rmin_l e d). pose proof (Rmin_r e d).
    assert (0 < Rmin e d) by (apply Rmin_glb_lt; auto). split; [lra|]. split; [apply H|apply K]; lra.
  Qed.
  Lemma before_inside : forall h r q, tree_ok h -> boxes_current h -> boxes_fit h -> world_ray r -> good_ray h r ->
    (just_before (fun u => inside h (ray_at r u)) q -> inside_at xsle (Fin q) (fst (shape_intersect asort h r)) = true) /\
    (just_before (fun u => ~ inside h (ray_at r u)) q -> inside_at xsle (Fin q) (fst (shape_intersect asort h r)) = false).
  Proof.
    intros h r q T B F W G. destruct (before_is h r q T B F W G) as (e & E & H).
    assert (J : just_before (fun u => inside h (ray_at r u) <-> inside_at xsle (Fin q) (fst (shape_intersect asort h r)) = true) q) by (exists e; auto).
    split; intro K; destruct (before_holds _ _ q J K) as (u & _ & I & I'); [tauto|]. destruct (inside_at _ _ _); [tauto|reflexivity].
  Qed.

  (** ** The trees *)
  Variables (f : surf) (w l : R).
  Hypothesis PF : s_prim f = PPlane w l.
  Variable r : ray.
  Hypothesis W : world_ray r.

  Lemma cut_leaf : forall ds ts s, cut_from f ds ts s -> tree_ok s -> good_ray s r -> surf_ok f /\ good_local (s_prim f) (ray_map (s_obj f) r).
  Proof.
    induction 1 as [b|ds ts s h i b C IH|ds ts s h i b C IH]; intros T G; [auto| |]; destruct T as [T _], G as (_ & G & _); auto.
  Qed.
  Lemma cut_in : forall ds ts s, cut_from f ds ts s -> In f (surface_ids s).
  Proof. induction 1; cbn [surface_ids]; [left; reflexivity| |]; apply in_or_app; left; assumption. Qed.

  Lemma on_plate_local : forall q, surf_ok f -> (on_plate f w l r q <->
    Rabs (vx (mapply (s_obj f) (ray_at r q))) < w / 2 /\ Rabs (vy (mapply (s_obj f) (ray_at r q))) < l / 2 /\ vz (mapply (s_obj f) (ray_at r q)) = 0).
  Proof.
    intros q (_ & A & I). split.
    - intros (x & y & X & Y & E). rewrite E, (inverse_apply_l _ _ _ I). auto.
    - intros (X & Y & Z). exists (vx (mapply (s_obj f) (ray_at r q))), (vy (mapply (s_obj f) (ray_at r q))). split; [exact X|]. split; [exact Y|].
      rewrite <- (inverse_apply_r _ _ (ray_at r q) I) at 1. f_equal.
      assert (V : vw (mapply (s_obj f) (ray_at r q)) = 1) by (rewrite affine_w; [apply ray_at_w; exact W|eapply affine_inverse; eauto]).
      destruct (mapply (s_obj f) (ray_at r q)) as [x y z k]. cbn [vx vy vz vw] in *. subst. reflexivity.
  Qed.
  Lemma plate_box : forall q, surf_ok f -> on_plate f w l r q -> just_before (fun u => in_box (surf_box (s_prim f) (s_world f)) (ray_at r u)) q.
  Proof.
    intros q K P. apply on_plate_local in P; [|exact K]. destruct P as (X & Y & Z).
    pose (v := Surf 0 (PCube (- w / 2, - l / 2, - (1 / 100)) (w / 2, l / 2, 1 / 100)) (s_world f) (s_obj f) 1 Absorber).
    assert (KW : surf_ok v) by (destruct K as (_ & K1 & K2); split; [constructor|auto]).
    set (d := direction (ray_map (s_obj f) r)). set (o := mapply (s_obj f) (ray_at r q)) in *.
    assert (RA : forall u, mapply (s_obj f) (ray_at r (q + u)) = V4 (vx o + u * vx d) (vy o + u * vy d) (vz o + u * vz d) (vw o + u * vw d)).
    { intro u. unfold o. rewrite <- !ray_at_map. unfold ray_at. cbn [vx vy vz vw]. fold d. f_equal; ring. }
    assert (AB : forall m n, Rabs m < n -> - n < m < n) by (intros m n; unfold Rabs; destruct (Rcase_abs m); lra). apply AB in X. apply AB in Y.
    assert (N : near (fun u => in_box (surf_box (s_prim f) (s_world f)) (ray_at r (q + u)))).
    { eapply near_impl; [|apply near_and; [apply near_and; [apply (near_line (vx o) (vx d) (w / 2)); lra|apply (near_line' (vx o) (vx d) (- (w / 2))); lra]|
        apply near_and; [apply near_and; [apply (near_line (vy o) (vy d) (l / 2)); lra|apply (near_line' (vy o) (vy d) (- (l / 2))); lra]|
        apply near_and; [apply (near_line (vz o) (vz d) (1 / 100)); lra|apply (near_line' (vz o) (vz d) (- (1 / 100))); lra]]]].
      intros u ((X1 & X2) & (Y1 & Y2) & Z1 & Z2). rewrite PF. change (surf_box (PPlane w l) (s_world f)) with (surf_box (s_prim v) (s_world v)).
      apply surf_box_contains; [exact (proj1 KW)|]. apply placed_local; [exact KW|apply ray_at_w; exact W|].
      cbn [s_prim s_obj v]. rewrite RA. unfold solid. cbn [vx vy vz]. unfold between. rewrite ?Rmin_left, ?Rmax_right by lra. repeat split; lra. }
    destruct N as (e & E0 & N). exists e. split; [exact E0|]. intros u U. replace u with (q + (u - q)) by ring. apply N. rewrite Rabs_left; lra.
  Qed.
  Lemma placed_plate : forall q, surf_ok f -> on_plate f w l r q -> placed f (ray_at r q).
  Proof.
    intros q K P. apply placed_local; [exact K|apply ray_at_w; exact W|]. apply on_plate_local in P; [|exact K]. rewrite PF. unfold solid. destruct P as (X & Y & Z). repeat split; [lra|lra|exact Z].
  Qed.

  Hypothesis KT : keeps_ties asort.
  Definition sound (h : shape) : Prop := tree_ok h /\ boxes_current h /\ boxes_fit h /\ good_ray h r.
  Lemma cut_sound : forall ds ts s, cut_from f ds ts s -> tree_ok s -> boxes_current s -> boxes_fit s -> good_ray s r -> Forall sound ds /\ Forall sound ts.
  Proof.
    induction 1 as [b|ds ts s h i b C IH|ds ts s h i b C IH]; intros T B F G; [auto| |];
    destruct T as [T T'], B as (B & B' & _), G as (_ & G & G'), F as (F & F' & _), (IH T B F G); (split; [try constructor; auto; repeat split; auto|try constructor; auto; repeat split; auto]).
  Qed.
  Lemma hole_column : forall h, sound h -> StronglySorted (fun a b => xsle a b = true) (fst (shape_intersect asort h r)) /\
    ends (fst (shape_intersect asort h r)) /\ Nat.odd (length (fst (shape_intersect asort h r))) = false /\
    length (snd (shape_intersect asort h r)) = length (fst (shape_intersect asort h r)).
  Proof.
    intros h (T & _ & _ & G). destruct (shape_columns asort AS h r) as (S1 & L & L'). split; [exact S1|]. split; [apply column_ends; auto|]. rewrite L, L'. split; [apply rows_even|reflexivity].
  Qed.
  Lemma all_inf_repeat : forall (h : list xr), Forall (eq PInf) h -> h = repeat PInf (length h).
  Proof. induction 1 as [|x h E F IH]; [reflexivity|]. cbn [length repeat]. congruence. Qed.

  Lemma columns_inf : forall n, Forall (eq PInf) (repeat PInf n).
  Proof. intro n. apply Forall_forall. intros x X. apply repeat_spec in X. congruence. Qed.
  Definition left_of (t : R) (col : list xr * list Z) : Prop :=
    exists ids n, col = (Fin t :: Fin t :: repeat PInf n, s_id f :: s_id f :: ids) /\ length ids = n.
  Lemma node_nothing : forall op s h, op <> UNION -> sound h -> Forall (eq PInf) (fst (shape_intersect asort s r)) ->
    Forall (eq PInf) (fst (csg_combine PInf asort op (fst (shape_intersect asort s r)) (snd (shape_intersect asort s r)) (fst (shape_intersect asort h r)) (snd (shape_intersect asort h r)))).
  Proof.
    intros op s h OP Sh N. destruct (hole_column h Sh) as (H1 & H2 & H3 & _). destruct (shape_columns asort AS s r) as (_ & L & _).
    rewrite (all_inf_repeat _ N). apply combine_nothing; auto. rewrite L. apply rows_even.
  Qed.
  Lemma node_left : forall op s h t, op <> UNION -> sound h -> left_of t (shape_intersect asort s r) ->
    let c := csg_combine PInf asort op (fst (shape_intersect asort s r)) (snd (shape_intersect asort s r)) (fst (shape_intersect asort h r)) (snd (shape_intersect asort h r)) in
    if kept op (inside_at xsle (Fin t) (fst (shape_intersect asort h r))) then left_of t c else Forall (eq PInf) (fst c).
  Proof.
    intros op s h t OP Sh (ids & n & E & L1). destruct (hole_column h Sh) as (H1 & H2 & H3 & H4). destruct (shape_columns asort AS s r) as (_ & L & _).
    rewrite E in L |- *. cbn [fst snd length] in *. rewrite repeat_length in L.
    assert (EN : Nat.odd n = false) by (pose proof (rows_even s) as RE; rewrite <- L in RE; rewrite <- RE; rewrite !Nat.odd_succ, Nat.even_succ; reflexivity).
    cbv zeta. destruct (kept op (inside_at xsle (Fin t) (fst (shape_intersect asort h r)))) eqn:K.
    - destruct (combine_kept asort AS KT op OP t n (s_id f) ids (fst (shape_intersect asort h r)) (snd (shape_intersect asort h r))) as (ids' & E2 & L2); auto. exists ids'. eauto.
    - apply combine_cut; auto.
  Qed.
  Lemma node_is : forall i op b s h, shape_intersect asort (Node i op b s h) r = if box_hit b r then
    csg_combine PInf asort op (fst (shape_intersect asort s r)) (snd (shape_intersect asort s r)) (fst (shape_intersect asort h r)) (snd (shape_intersect asort h r))
    else (repeat PInf (shape_rows (Node i op b s h)), repeat (-1)%Z (shape_rows (Node i op b s h))).
  Proof. intros. cbn [shape_intersect]. destruct (box_hit b r); [|reflexivity]. destruct (shape_intersect asort s r), (shape_intersect asort h r). reflexivity. Qed.
  Lemma node_kept : forall op, op = DIFFERENCE \/ op = INTERSECT -> op <> UNION.
  Proof. intros op [-> | ->]; discriminate. Qed.

  (** the hits are those of the plate, or there are none *)
  Definition passed (t : R) (ds ts : list shape) : Prop :=
    Forall (fun h => inside_at xsle (Fin t) (fst (shape_intersect asort h r)) = false) ds /\
    Forall (fun h => inside_at xsle (Fin t) (fst (shape_intersect asort h r)) = true) ts.
  Lemma cut_column : forall ds ts s, cut_from f ds ts s -> tree_ok s -> boxes_current s -> boxes_fit s -> good_ray s r ->
    Forall (eq PInf) (fst (shape_intersect asort s r)) \/
    exists t, surf_hits f r = [Fin t; Fin t] /\ left_of t (shape_intersect asort s r) /\ passed t ds ts.
  Proof.
    assert (NX : forall op i b ds ts s h, op <> UNION -> sound h -> (Forall (eq PInf) (fst (shape_intersect asort s r)) \/
      exists t, surf_hits f r = [Fin t; Fin t] /\ left_of t (shape_intersect asort s r) /\ passed t ds ts) ->
      Forall (eq PInf) (fst (shape_intersect asort (Node i op b s h) r)) \/
      exists t, surf_hits f r = [Fin t; Fin t] /\ left_of t (shape_intersect asort (Node i op b s h) r) /\ passed t ds ts /\
        kept op (inside_at xsle (Fin t) (fst (shape_intersect asort h r))) = true).
    { intros op i b ds ts s h OP Sh IH. rewrite node_is. destruct (box_hit b r); [|left; apply columns_inf]. destruct IH as [IH|(t & E & LF & PS)].
      - left. apply node_nothing; auto.
      - pose proof (node_left op s h t OP Sh LF) as X. cbv zeta in X. destruct (kept op _) eqn:K; [right; exists t; auto|left; exact X]. }
    induction 1 as [b|ds ts s h i b C IH|ds ts s h i b C IH]; intros T B F G.
    - cbn [shape_intersect fst]. destruct (cut_leaf [] [] (Leaf f b) (whole f b) T G) as [K GL]. pose proof (proj1 K) as PO. rewrite PF in PO, GL. destruct PO as [A A'], GL as [CL Z].
      destruct (plane_column f w l (s_obj f) A A' PF eq_refl r CL) as [[_ H]|[(t & H & _)|[H _]]]; rewrite H; [left; repeat constructor| |left; repeat constructor].
      right. exists t. split; [reflexivity|]. split; [exists [], 0%nat; auto|split; constructor].
    - destruct (cut_sound _ _ _ (drill _ _ _ _ h i b C) T B F G) as [SD _]. inversion SD as [|? ? Sh _]; subst. destruct T as [T T'], B as (B & B' & _), G as (_ & G & G'), F as (F & F' & _).
      destruct (NX DIFFERENCE i b ds ts s h ltac:(discriminate) Sh (IH T B F G)) as [X|(t & E & LF & [P1 P2] & K)]; [left; exact X|right]. exists t. split; [exact E|]. split; [exact LF|].
      split; [constructor; [|exact P1]|exact P2]. apply negb_true_iff. exact K.
    - destruct (cut_sound _ _ _ (trim _ _ _ _ h i b C) T B F G) as [_ SD]. inversion SD as [|? ? Sh _]; subst. destruct T as [T T'], B as (B & B' & _), G as (_ & G & G'), F as (F & F' & _).
      destruct (NX INTERSECT i b ds ts s h ltac:(discriminate) Sh (IH T B F G)) as [X|(t & E & LF & [P1 P2] & K)]; [left; exact X|right]. exists t. split; [exact E|]. split; [exact LF|].
      split; [exact P1|constructor; [exact K|exact P2]].
  Qed.
  (** the ray is in every box just before it reaches the plate *)
  Lemma before_and : forall (P Q : R -> Prop) q, just_before P q -> just_before Q q -> just_before (fun u => P u /\ Q u) q.
  Proof.
    intros P Q q (e & E & H) (d & D & K). exists (Rmin e d). pose proof (Rmin_l e d). pose proof (Rmin_r e d). split; [apply Rmin_glb_lt; auto|]. intros u U. split; [apply H|apply K]; lra.
  Qed.
  Lemma cut_boxes : forall q, surf_ok f -> on_plate f w l r q -> forall ds ts s, cut_from f ds ts s -> tree_ok s -> boxes_current s -> boxes_fit s ->
    Forall (fun h => just_before (fun u => inside h (ray_at r u)) q) ts -> just_before (fun u => in_box (shape_box s) (ray_at r u)) q.
  Proof.
    intros q K P. induction 1 as [b|ds ts s h i b C IH|ds ts s h i b C IH]; intros T B F O.
    - cbn [boxes_current shape_box] in *. subst b. apply plate_box; auto.
    - destruct T as [T T'], B as (B & B' & srt & _ & ->), F as (F & F' & _). cbn [shape_box csg_box]. auto.
    - destruct T as [T T'], B as (B & B' & srt & SK & ->), F as (F & F' & BF). inversion O as [|? ? O1 O2]; subst.
      destruct (before_and _ _ q O1 (IH T B F O2)) as (e & E & H). exists e. split; [exact E|]. intros u U. destruct (H u U) as [I1 I2]. cbn [shape_box].
      destruct (shape_in_box s T B F) as [V _], (shape_in_box h T' B' F') as [V' BI]. apply (proj2 (SpanFacts.csg_box_sound srt SK INTERSECT _ _ V V' BF)). split; [exact I2|apply BI; exact I1].
  Qed.
  Lemma cut_kept : forall q, on_plate f w l r q -> clear_dir r -> surf_hits f r = [Fin q; Fin q] -> forall ds ts s, cut_from f ds ts s ->
    tree_ok s -> boxes_current s -> boxes_fit s -> good_ray s r -> passed q ds ts ->
    Forall (fun h => just_before (fun u => inside h (ray_at r u)) q) ts -> left_of q (shape_intersect asort s r).
  Proof.
    intros q P CD E.
    assert (BH : forall ds ts s, cut_from f ds ts s -> tree_ok s -> boxes_current s -> boxes_fit s -> good_ray s r ->
      Forall (fun h => just_before (fun u => inside h (ray_at r u)) q) ts -> box_hit (shape_box s) r = true).
    { intros ds ts s C T B F G O. destruct (cut_leaf ds ts s C T G) as [K _]. destruct (cut_boxes q K P ds ts s C T B F O) as (e & E0 & H).
      apply box_hit_crosses; [apply (shape_in_box s T B F)|exact (proj2 (proj2 W))|exact CD|]. exists (q - e), (q - e / 2). split; [lra|]. split; apply H; lra. }
    induction 1 as [b|ds ts s h i b C IH|ds ts s h i b C IH]; intros T B F G PS O.
    - exists [], 0%nat. cbn [shape_intersect]. rewrite E. auto.
    - pose proof (BH _ _ _ (drill _ _ _ _ h i b C) T B F G O) as X. destruct (cut_sound _ _ _ (drill _ _ _ _ h i b C) T B F G) as [SD _]. inversion SD as [|? ? Sh _]; subst.
      destruct T as [T T'], B as (B & B' & _), G as (_ & G & G'), F as (F & F' & _), PS as [P1 P2]. inversion P1 as [|? ? P3 P4]; subst.
      rewrite node_is. cbn [shape_box] in X. rewrite X. pose proof (node_left DIFFERENCE s h q ltac:(discriminate) Sh (IH T B F G (conj P4 P2) O)) as Y. cbv zeta in Y. rewrite P3 in Y. exact Y.
    - pose proof (BH _ _ _ (trim _ _ _ _ h i b C) T B F G O) as X. destruct (cut_sound _ _ _ (trim _ _ _ _ h i b C) T B F G) as [_ SD]. inversion SD as [|? ? Sh _]; subst.
      destruct T as [T T'], B as (B & B' & _), G as (_ & G & G'), F as (F & F' & _), PS as [P1 P2]. inversion P2 as [|? ? P3 P4]; subst. inversion O as [|? ? O1 O2]; subst.
      rewrite node_is. cbn [shape_box] in X. rewrite X. pose proof (node_left INTERSECT s h q ltac:(discriminate) Sh (IH T B F G (conj P1 P4) O2)) as Y. cbv zeta in Y. rewrite P3 in Y. exact Y.
  Qed.
End Plate.
