(** * SheetFacts3: the rays a plate with holes and an outline is hit by *)
From Coq Require Import Reals Lra Lia List Bool ZArith Sorted Arith.
Import ListNotations.
From Verif Require Import XR XRFacts Arr Lin LinFacts Prim Csg SpecCsg CsgProps Surf SpecGeom SpecTree TreeFacts SurfFacts UnionFacts TreeExamples
  Tracer SpecStop StopFacts StopFacts2 SpecSheet SheetFacts SheetFacts2.
Open Scope R_scope.

Section Plate.
  Variables (asort : list xr -> list nat) (f : surf) (w l : R) (ds ts : list shape) (s : shape) (c : col).
  Hypotheses (AS : argsort_ok asort) (KT : keeps_ties asort) (PF : s_prim f = PPlane w l) (C : cut_from f ds ts s).
  Hypotheses (T : tree_ok s) (B : boxes_current s) (F : boxes_fit s) (W : world_ray (c_ray c)) (G : good_ray s (c_ray c)).
  Let r := c_ray c.

  Lemma plate_column : (exists t, surf_hits f r = [Fin t; Fin t] /\ forall q, placed f (ray_at r q) <-> q = t) \/
    (surf_hits f r = [PInf; PInf] /\ forall q, ~ placed f (ray_at r q)).
  Proof.
    destruct (cut_leaf f r ds ts s C T G) as [K GL]. pose proof (proj1 K) as PO. rewrite PF in PO, GL. destruct PO as [A A'], GL as [CL Z].
    assert (SO : forall q, placed f (ray_at r q) <-> solid (PPlane w l) (ray_at (ray_map (s_obj f) r) q)).
    { intro q. rewrite ray_at_map, <- PF. apply placed_local; [exact K|apply ray_at_w; exact W]. }
    destruct (plane_column f w l (s_obj f) A A' PF eq_refl r CL) as [[Z' _]|[(t & H & I & U)|[H N]]]; [contradiction| |].
    - left. exists t. split; [exact H|]. intro q. rewrite SO. split; [apply U|intros ->; exact I].
    - right. split; [exact H|]. intro q. rewrite SO. apply N.
  Qed.
  Lemma passed_is : forall q, passed asort r q ds ts <->
    Forall (fun h => just_before (fun u => ~ inside h (ray_at r u)) q) ds /\ Forall (fun h => just_before (fun u => inside h (ray_at r u)) q) ts.
  Proof.
    destruct (cut_sound f r ds ts s C T B F G) as [SD ST]. intro q. unfold passed. rewrite Forall_forall in SD, ST. rewrite !Forall_forall.
    split; intros [P1 P2]; (split; intros h J; [specialize (P1 h J); destruct (SD h J) as (T1 & B1 & F1 & G1)|specialize (P2 h J); destruct (ST h J) as (T1 & B1 & F1 & G1)]);
    destruct (before_inside asort AS h r q T1 B1 F1 W G1) as [X Y]; auto;
    destruct (before_or asort AS h r q T1 B1 F1 W G1) as [D|D]; auto; exfalso; [apply X in D|apply Y in D]; congruence.
  Qed.
  Lemma left_first : forall q, left_of f q (shape_intersect asort s r) -> (0 < q -> propagate asort [s] c = (Fin q, s_id f)) /\ (q <= 0 -> let_by asort s c).
  Proof. intros q (ids & n & E & _). apply (first_of asort s c q (s_id f) (repeat PInf n) (s_id f :: ids) E). apply columns_inf. Qed.
  Lemma nothing_left : Forall (eq PInf) (fst (shape_intersect asort s r)) -> let_by asort s c.
  Proof. intro N. destruct (shape_intersect asort s r) as [hs ids] eqn:E. exact (nothing_hit asort s c hs ids E N). Qed.

  Lemma plate_stops : forall q, 0 < q -> clear_dir r -> on_plate f w l r q ->
    Forall (fun h => just_before (fun u => ~ inside h (ray_at r u)) q) ds -> Forall (fun h => just_before (fun u => inside h (ray_at r u)) q) ts ->
    propagate asort [s] c = (Fin q, s_id f).
  Proof.
    intros q Q CD P O O'. destruct (cut_leaf f r ds ts s C T G) as [K _].
    pose proof (placed_plate f w l PF r W q K P) as PL. destruct plate_column as [(t & H & U)|[_ N]]; [|elim (N q PL)].
    apply U in PL. subst t. apply left_first; [|exact Q].
    apply (cut_kept asort AS f w l PF r W KT q P CD H ds ts s C T B F G); [apply passed_is; auto|exact O'].
  Qed.
  Lemma only_the_plate : let_by asort s c \/ exists q, 0 < q /\ propagate asort [s] c = (Fin q, s_id f) /\ placed f (ray_at r q) /\
    Forall (fun h => just_before (fun u => ~ inside h (ray_at r u)) q) ds /\ Forall (fun h => just_before (fun u => inside h (ray_at r u)) q) ts.
  Proof.
    destruct (cut_column asort AS f w l PF r W KT ds ts s C T B F G) as [N|(t & H & LF & PS)]; [left; apply nothing_left; exact N|].
    destruct (left_first t LF) as [L1 L2]. destruct (Rle_dec t 0) as [TL|TL]; [left; auto|right]. exists t. split; [lra|]. split; [apply L1; lra|]. split; [|apply passed_is; exact PS].
    destruct plate_column as [(t' & H' & U)|[H' _]]; rewrite H in H'; [|discriminate]. injection H' as <-. apply U. reflexivity.
  Qed.
  Lemma hole_passes : forall q, placed f (ray_at r q) ->
    Exists (fun h => just_before (fun u => inside h (ray_at r u)) q) ds \/ Exists (fun h => just_before (fun u => ~ inside h (ray_at r u)) q) ts -> let_by asort s c.
  Proof.
    intros q PL O. destruct only_the_plate as [L|(q' & _ & _ & PL' & D & E)]; [exact L|exfalso].
    destruct plate_column as [(t & _ & U)|[_ N]]; [|elim (N q PL)]. apply U in PL. apply U in PL'. subst q q'. rewrite Forall_forall in D, E.
    destruct O as [O|O]; apply Exists_exists in O; destruct O as (h & J & O);
    [destruct (before_holds _ _ t O (D h J)) as (u & _ & X & Y)|destruct (before_holds _ _ t O (E h J)) as (u & _ & X & Y)]; contradiction.
  Qed.
  Lemma hole_or_not : forall q, (Forall (fun h => just_before (fun u => ~ inside h (ray_at r u)) q) ds /\ Forall (fun h => just_before (fun u => inside h (ray_at r u)) q) ts) \/
    Exists (fun h => just_before (fun u => inside h (ray_at r u)) q) ds \/ Exists (fun h => just_before (fun u => ~ inside h (ray_at r u)) q) ts.
  Proof.
    intro q. destruct (cut_sound f r ds ts s C T B F G) as [SD ST]. clear C.
    assert (D : Forall (fun h => just_before (fun u => ~ inside h (ray_at r u)) q) ds \/ Exists (fun h => just_before (fun u => inside h (ray_at r u)) q) ds).
    { clear ST. induction SD as [|h hs (T1 & B1 & F1 & G1) SD IH]; [left; constructor|].
      destruct (before_or asort AS h r q T1 B1 F1 W G1) as [D|D]; [right; left; exact D|]. destruct IH as [IH|IH]; [left; constructor; auto|right; right; exact IH]. }
    assert (E : Forall (fun h => just_before (fun u => inside h (ray_at r u)) q) ts \/ Exists (fun h => just_before (fun u => ~ inside h (ray_at r u)) q) ts).
    { clear SD D. induction ST as [|h hs (T1 & B1 & F1 & G1) ST IH]; [left; constructor|].
      destruct (before_or asort AS h r q T1 B1 F1 W G1) as [D|D]; [|right; left; exact D]. destruct IH as [IH|IH]; [left; constructor; auto|right; right; exact IH]. }
    destruct D as [D|D]; [|auto]. destruct E as [E|E]; auto.
  Qed.
End Plate.

(** ** A round screen with two slits *)
Definition slit (i : Z) (a b : R) : shape := leaf_of (at_origin i (PCube (a, -1, -1) (b, 1, 1))).
Definition screen : surf := at_origin 0 (PPlane 4 4).
Definition outline : shape := leaf_of (at_origin 5 (PCylinder (3/2) (-1) 1 true)).
Definition slits (asort : list xr -> list nat) : shape :=
  let one := Node 3 DIFFERENCE (csg_box asort DIFFERENCE (shape_box (leaf_of screen)) (shape_box (slit 1 (-1) (-1/2)))) (leaf_of screen) (slit 1 (-1) (-1/2)) in
  let two := Node 4 DIFFERENCE (csg_box asort DIFFERENCE (shape_box one) (shape_box (slit 2 (1/2) 1))) one (slit 2 (1/2) 1) in
  Node 6 INTERSECT (csg_box asort INTERSECT (shape_box two) (shape_box outline)) two outline.
Definition shot (x : R) : ray := Ray (V4 x 0 (-3) 1) (V4 0 0 1 0).
Lemma box_screen : shape_box (leaf_of screen) = Box (Fin (-2), Fin 2) (Fin (-2), Fin 2) (Fin (-(1/100)), Fin (1/100)).
Proof.
  cbn [leaf_of shape_box screen at_origin s_prim s_world]. rewrite (surf_box_mid _ (-4 / 2) (-4 / 2) (- (1 / 100)) (4 / 2) (4 / 2) (1 / 100)) by (cbn; repeat f_equal; lra).
  rewrite !Rmin_left, !Rmax_right by lra. repeat f_equal; lra.
Qed.
Lemma box_outline : shape_box outline = Box (Fin (-(3/2)), Fin (3/2)) (Fin (-(3/2)), Fin (3/2)) (Fin (-1), Fin 1).
Proof.
  cbn [outline leaf_of shape_box at_origin s_prim s_world]. rewrite (surf_box_mid _ (-(3/2)) (-(3/2)) (-1) (3/2) (3/2) 1) by reflexivity.
  rewrite !Rmin_left, !Rmax_right by lra. auto.
Qed.
Lemma slits_ok : forall asort, argsort_ok asort -> cut_from screen [slit 2 (1/2) 1; slit 1 (-1) (-1/2)] [outline] (slits asort) /\ tree_ok (slits asort) /\
  boxes_current (slits asort) /\ boxes_fit (slits asort).
Proof.
  intros asort AS. split; [repeat constructor|]. split; [|split].
  - cbn [slits tree_ok leaf_of slit screen outline]. repeat split; try apply affine_mid; try apply mmul_mid_l; cbn; lra.
  - cbn. repeat split; eauto.
  - cbn [slits boxes_fit]. split; [|split; [exact I|]].
    + cbn. repeat split.
    + cbn [shape_box csg_box]. rewrite box_screen, box_outline. unfold box_fits; cbn [spanx spany spanz span_fits]. repeat split; left; unfold overlapping; cbn [fst snd]; rewrite ?xmax_fin, ?xmin_fin; cbn [xltb];
      apply rltb_true; unfold Rmax, Rmin; destruct (Rle_dec _ _), (Rle_dec _ _); lra.
Qed.
Lemma shot_ok : forall asort x, world_ray (shot x) /\ clear_dir (shot x) /\ good_ray (slits asort) (shot x).
Proof.
  assert (C : clear 1) by (right; unfold atol; rewrite Rabs_right; lra). assert (Z : clear 0) by (left; reflexivity).
  intros asort x. split; [|split].
  - unfold world_ray, moving, shot; cbn. repeat split; lra.
  - unfold clear_dir, shot; cbn. auto.
  - cbn [slits good_ray leaf_of slit screen outline at_origin s_prim s_obj]. rewrite !ray_map_mid. unfold good_local, clear_dir, clear_ray, shot. cbn [direction vx vy vz].
    replace (0 * 0 + 0 * 0) with 0 by ring. repeat split; auto; lra.
Qed.
Lemma in_outline : forall x u, inside outline (ray_at (shot x) u) <-> (x * x <= 9 / 4 /\ -1 <= -3 + u <= 1).
Proof.
  intros x u. cbn [outline inside leaf_of]. rewrite placed_local; [|apply at_origin_ok; cbn; lra|unfold ray_at, shot; cbn; ring].
  unfold at_origin. cbn [s_prim s_obj]. rewrite mapply_mid. unfold solid, shot, ray_at. cbn [origin direction vx vy vz vw].
  split; intros (A & D); (split; [|lra]); [replace (x * x) with ((x + u * 0) * (x + u * 0) + (0 + u * 0) * (0 + u * 0)) by ring; lra|].
  replace ((x + u * 0) * (x + u * 0) + (0 + u * 0) * (0 + u * 0)) with (x * x) by ring. lra.
Qed.
Lemma shot_plate : forall x, Rabs x < 2 -> on_plate screen 4 4 (shot x) 3.
Proof.
  intros x X. exists x, 0. split; [lra|]. split; [rewrite Rabs_R0; lra|]. unfold screen, at_origin, shot, ray_at. cbn [s_world origin direction vx vy vz vw]. rewrite mapply_mid. f_equal; ring.
Qed.
Lemma in_slit : forall i a b x u, a <= b -> inside (slit i a b) (ray_at (shot x) u) <-> (a <= x <= b /\ -1 <= -3 + u <= 1).
Proof.
  intros i a b x u L. cbn [slit inside leaf_of]. rewrite placed_local; [|apply at_origin_ok; constructor|unfold ray_at, shot; cbn; ring].
  unfold at_origin. cbn [s_prim s_obj]. rewrite mapply_mid. unfold solid, between, shot, ray_at. cbn [origin direction vx vy vz vw].
  rewrite ?Rmin_left, ?Rmax_right by lra. split; [intros (A & _ & D); lra|intros (A & D); repeat split; lra].
Qed.

(** ** A pocket that starts at the plate *)
Definition pocket : shape := leaf_of (at_origin 1 (PCube (-1, -1, 0) (1, 1, 1))).
Definition flush (asort : list xr -> list nat) : shape := Node 2 DIFFERENCE (csg_box asort DIFFERENCE (shape_box (leaf_of screen)) (shape_box pocket)) (leaf_of screen) pocket.
Definition back : ray := Ray (V4 0 0 3 1) (V4 0 0 (-1) 0).
Lemma flush_ok : forall asort, argsort_ok asort -> cut_from screen [pocket] [] (flush asort) /\ tree_ok (flush asort) /\ boxes_current (flush asort) /\ boxes_fit (flush asort).
Proof.
  intros asort AS. split; [repeat constructor|]. split; [|split].
  - cbn [flush tree_ok leaf_of pocket screen]. repeat split; try apply affine_mid; try apply mmul_mid_l; cbn; lra.
  - cbn. repeat split; eauto.
  - cbn. repeat split.
Qed.
Lemma flush_rays : forall asort r, r = shot 0 \/ r = back -> world_ray r /\ clear_dir r /\ good_ray (flush asort) r.
Proof.
  assert (C : clear 1) by (right; unfold atol; rewrite Rabs_right; lra). assert (C' : clear (-1)) by (right; unfold atol; rewrite Rabs_left; lra). assert (Z : clear 0) by (left; reflexivity).
  intros asort r [-> | ->]; (split; [|split]);
  try (unfold world_ray, moving, shot, back; cbn; repeat split; lra); try (unfold clear_dir, shot, back; cbn; auto; fail);
  cbn [flush good_ray leaf_of pocket screen at_origin s_prim s_obj]; rewrite !ray_map_mid; unfold good_local, clear_dir, clear_ray, shot, back; cbn; repeat split; auto; lra.
Qed.
Lemma in_pocket : forall r u, vw (ray_at r u) = 1 -> (inside pocket (ray_at r u) <-> -1 <= vx (ray_at r u) <= 1 /\ -1 <= vy (ray_at r u) <= 1 /\ 0 <= vz (ray_at r u) <= 1).
Proof.
  intros r u V. cbn [pocket inside leaf_of]. rewrite placed_local; [|apply at_origin_ok; constructor|exact V].
  unfold at_origin. cbn [s_prim s_obj]. rewrite mapply_mid. unfold solid, between. rewrite ?Rmin_left, ?Rmax_right by lra. reflexivity.
Qed.
Lemma one_way : forall asort, argsort_ok asort -> keeps_ties asort -> forall c c', c_ray c = shot 0 -> c_ray c' = back ->
  propagate asort [flush asort] c = (Fin 3, 0%Z) /\ let_by asort (flush asort) c'.
Proof.
  intros asort AS KT c c' E E'. destruct (flush_ok asort AS) as (C & T & B & F). destruct (flush_rays asort _ (or_introl eq_refl)) as (W & D & G), (flush_rays asort _ (or_intror eq_refl)) as (W' & D' & G').
  rewrite <- E in W, D, G. rewrite <- E' in W', D', G'. split.
  - change 0%Z with (s_id screen). apply (plate_stops asort screen 4 4 [pocket] [] (flush asort) c AS KT eq_refl C T B F W G 3 ltac:(lra) D).
    + rewrite E. apply shot_plate. rewrite Rabs_R0. lra.
    + constructor; [|constructor]. exists 1. split; [lra|]. intros u U I. rewrite E in I. apply in_pocket in I; [|unfold ray_at, shot; cbn; ring].
      unfold ray_at, shot in I. cbn [origin direction vx vy vz vw] in I. lra.
    + constructor.
  - apply (hole_passes asort screen 4 4 [pocket] [] (flush asort) c' AS KT eq_refl C T B F W' G' 3).
    + apply (placed_plate screen 4 4 eq_refl (c_ray c') W' 3 (proj1 T)). rewrite E'. exists 0, 0. rewrite Rabs_R0. split; [lra|]. split; [lra|].
      unfold screen, at_origin, back, ray_at. cbn [s_world origin direction vx vy vz vw]. rewrite mapply_mid. f_equal; ring.
    + left. left. exists 1. split; [lra|]. intros u U. rewrite E'. apply in_pocket; [unfold ray_at, back; cbn; ring|]. unfold ray_at, back. cbn [origin direction vx vy vz vw]. lra.
Qed.
