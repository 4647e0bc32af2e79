(** * PrismExamples: one ray through a prism *)
From Coq Require Import Reals List Bool ZArith Lra Lia Psatz.
Import ListNotations.
From Verif Require Import XR XRFacts Arr Lin LinFacts Ops OpsFacts SpecOptics Prim Csg Surf SpecGeom SpecTree CsgProps SurfFacts TreeFacts World SpecWorld WorldFacts WorldFacts3 WorldFacts5 WorldFacts4 Tracer SpecTrace
  TraceFacts4 TraceFacts5 TraceFacts7 TraceFacts8 TraceProps Components SpecComponents BuildFacts ComponentFacts ComponentFacts2 ComponentFacts3 SpecMotion MotionFacts SpecCrossing Crossing CrossingProps GaussExamples OpticsExamples
  SpecPrism PrismLaw PrismFacts PrismProps.
Open Scope R_scope.

(** ** The hits of one surface, from where the ray is inside it *)
Section Hits.
  Variables (f : surf) (r : ray).
  Hypotheses (OK : surf_ok f) (W : world_ray r) (G : good_local (s_prim f) (ray_map (s_obj f) r)).
  Let at_ t := placed f (ray_at r t).
  Lemma hits_chord : forall a b, at_ a -> at_ b -> a < b ->
    exists t0 t1, surf_hits f r = [Fin t0; Fin t1] /\ t0 <= a /\ b <= t1 /\ forall t, at_ t <-> t0 <= t <= t1.
  Proof.
    intros a b A B AB. destruct (surf_chord f r OK W G) as [(t0 & t1 & E & L & S)|(_ & S)].
    - exists t0, t1. apply S in A. apply S in B. split; auto. split; [lra|]. split; [lra|]. exact S.
    - assert (a = b); [|lra]. apply S; auto.
  Qed.
  Lemma hits_none : forall q, (forall t, 0 < t <= q -> ~ at_ t) -> forall t, 0 < t <= q -> ~ In (Fin t) (surf_hits f r).
  Proof.
    intros q N t T I. destruct (surf_chord f r OK W G) as [(t0 & t1 & E & L & S)|(E & _)]; rewrite E in I.
    - destruct I as [I|[I|[]]]; injection I as <-; apply (N _ T), S; lra.
    - destruct I as [I|[I|[]]]; discriminate.
  Qed.
  Lemma hits_past : forall a b q, at_ a -> at_ b -> a <= 0 -> q < b -> 0 < q -> forall t, 0 < t <= q -> ~ In (Fin t) (surf_hits f r).
  Proof.
    intros a b q A B A0 QB Q t T I. destruct (hits_chord a b A B ltac:(lra)) as (t0 & t1 & E & L0 & L1 & _). rewrite E in I.
    destruct I as [I|[I|[]]]; injection I as <-; lra.
  Qed.
End Hits.
Lemma count_none : forall (l : list xr) x, ~ In x l -> count_occ xr_eq_dec l x = 0%nat.
Proof. intros. apply count_occ_not_In. auto. Qed.
Lemma count_pair : forall a b t, a <> b -> (count_occ xr_eq_dec [Fin a; Fin b] (Fin t) <= 1)%nat.
Proof. intros. apply (proj1 (NoDup_count_occ xr_eq_dec _)). repeat constructor; simpl; intuition congruence. Qed.

Lemma prod_in : forall x X y Y, 0 <= x <= X -> - Y <= y <= Y -> - (X * Y) <= x * y <= X * Y.
Proof. intros. split; nra. Qed.
Lemma square_in : forall x a, - a <= x <= a -> x * x <= a * a.
Proof. intros. nra. Qed.
Lemma undo : forall m i l d, is_inverse m i -> mapply m l = d -> mapply i d = l.
Proof. intros m i l d I <-. apply (inverse_apply_l m i l I). Qed.
Lemma placed_of : forall f l q, surf_ok f -> vw q = 1 -> mapply (s_world f) l = q -> (placed f q <-> solid (s_prim f) l).
Proof.
  intros f l q OK V E. rewrite (placed_local f q OK V). rewrite (undo (s_world f) (s_obj f) l q); auto. reflexivity. apply OK.
Qed.

(** ** The parts of a prism of side 2 *)
Section Parts.
  Variable mat_ : material.
  Let k := sqrt 3.
  Definition wedge (u y v : R) : Prop :=
    - cut 2 <= (sqrt 3 * u - v) / 2 <= 0 /\ Rabs y <= 11 / 10 /\ 0 <= (u + sqrt 3 * v) / 2 <= cut 2.
  Lemma cut2 : cut 2 * sqrt 3 = 44 / 10.
  Proof. destruct sqrt3. unfold cut. field. lra. Qed.
  Lemma cut2_range : 24 / 10 < cut 2 < 26 / 10.
  Proof. destruct sqrt3 as [K2 K]. pose proof cut2. split; nra. Qed.
  Lemma left_wedge : forall f x y z, surf_ok f -> is_part f (cutter 2 2) mat_ (left_place 2) (-1) ->
    (placed f (pt x y z) <-> wedge (x + 1) y (z + sqrt 3 / 2)).
  Proof.
    intros f x y z OK (P & _ & Wd & _). destruct sqrt3 as [K2 K]. pose proof cut2_range as CR.
    rewrite (placed_of f (pt (sqrt 3 / 2 * (x + 1) - (z + sqrt 3 / 2) / 2 + cut 2 / 2) y ((x + 1) / 2 + sqrt 3 / 2 * (z + sqrt 3 / 2) - cut 2 / 2))); auto.
    - rewrite P. unfold cutter. rewrite from_sides_solid by lra. unfold wedge. rewrite !abs_le. split; intros (A & B & C); repeat split; lra.
    - rewrite Wd. unfold pt. rewrite left_apply. f_equal.
      + transitivity ((x + 1) * (sqrt 3 * sqrt 3 / 4 + 1 / 4) - 1); [field|rewrite K2; field].
      + transitivity ((z + sqrt 3 / 2) * (sqrt 3 * sqrt 3 / 4 + 1 / 4) - sqrt 3 / 2); [field|rewrite K2; field].
  Qed.
  Lemma right_wedge : forall f x y z, surf_ok f -> is_part f (cutter 2 2) mat_ (right_place 2) (-1) ->
    (placed f (pt x y z) <-> wedge (1 - x) y (z + sqrt 3 / 2)).
  Proof.
    intros f x y z OK (P & _ & Wd & _). destruct sqrt3 as [K2 K]. pose proof cut2_range as CR.
    rewrite (placed_of f (pt (- (sqrt 3 / 2) * (1 - x) + (z + sqrt 3 / 2) / 2 - cut 2 / 2) y ((1 - x) / 2 + sqrt 3 / 2 * (z + sqrt 3 / 2) - cut 2 / 2))); auto.
    - rewrite P. unfold cutter. rewrite from_sides_solid by lra. unfold wedge. rewrite !abs_le. split; intros (A & B & C); repeat split; lra.
    - rewrite Wd. unfold pt. rewrite right_apply. f_equal.
      + transitivity (1 - (1 - x) * (sqrt 3 * sqrt 3 / 4 + 1 / 4)); [field|rewrite K2; field].
      + transitivity ((z + sqrt 3 / 2) * (sqrt 3 * sqrt 3 / 4 + 1 / 4) - sqrt 3 / 2); [field|rewrite K2; field].
  Qed.
  Lemma block_placed : forall f x y z, surf_ok f -> is_part f (from_sides 2 2 2) mat_ (mmul (lift 2) mid) 1 ->
    (placed f (pt x y z) <-> -1 <= x <= 1 /\ -1 <= y <= 1 /\ 0 <= z + sqrt 3 / 2 <= 2).
  Proof.
    intros f x y z OK (P & _ & Wd & _). rewrite (placed_of f (pt x y (z + sqrt 3 / 2 - 1))); auto.
    - rewrite P, from_sides_solid by lra. rewrite !abs_le. split; intros (A & B & C); repeat split; lra.
    - rewrite Wd, mmul_mid_r. unfold lift, pt. rewrite mapply_mmove. f_equal; field.
  Qed.
  (** directions in the plane of the triangles *)
  Lemma left_dir : forall f e g, surf_ok f -> is_part f (cutter 2 2) mat_ (left_place 2) (-1) ->
    mapply (s_obj f) (V4 e 0 g 0) = V4 (sqrt 3 / 2 * e - g / 2) 0 (e / 2 + sqrt 3 / 2 * g) 0.
  Proof.
    intros f e g OK (P & _ & Wd & _). destruct sqrt3 as [K2 K]. apply (undo (s_world f)); [apply OK|]. rewrite Wd, left_apply. f_equal.
    - transitivity (e * (sqrt 3 * sqrt 3 / 4 + 1 / 4)); [field|rewrite K2; field].
    - transitivity (g * (sqrt 3 * sqrt 3 / 4 + 1 / 4)); [field|rewrite K2; field].
  Qed.
  Lemma right_dir : forall f e g, surf_ok f -> is_part f (cutter 2 2) mat_ (right_place 2) (-1) ->
    mapply (s_obj f) (V4 e 0 g 0) = V4 (sqrt 3 / 2 * e + g / 2) 0 (- e / 2 + sqrt 3 / 2 * g) 0.
  Proof.
    intros f e g OK (P & _ & Wd & _). destruct sqrt3 as [K2 K]. apply (undo (s_world f)); [apply OK|]. rewrite Wd, right_apply. f_equal.
    - transitivity (e * (sqrt 3 * sqrt 3 / 4 + 1 / 4)); [field|rewrite K2; field].
    - transitivity (g * (sqrt 3 * sqrt 3 / 4 + 1 / 4)); [field|rewrite K2; field].
  Qed.
  Lemma block_dir : forall f e g, surf_ok f -> is_part f (from_sides 2 2 2) mat_ (mmul (lift 2) mid) 1 -> mapply (s_obj f) (V4 e 0 g 0) = V4 e 0 g 0.
  Proof.
    intros f e g OK (P & _ & Wd & _). apply (undo (s_world f)); [apply OK|]. rewrite Wd, mmul_mid_r. unfold lift. rewrite mapply_mmove. f_equal; ring.
  Qed.
End Parts.

(** ** The prism in an absorbing ball of radius 9 *)
Lemma prism_shape : forall m s, erase s = prism_tree 2 2 m -> exists i b i' b' f1 b1 f2 b2 f3 b3,
  s = Node i DIFFERENCE b (Node i' DIFFERENCE b' (Leaf f1 b1) (Leaf f2 b2)) (Leaf f3 b3) /\
  is_part f1 (from_sides 2 2 2) m (mmul (lift 2) mid) 1 /\
  is_part f2 (cutter 2 2) m (left_place 2) (-1) /\ is_part f3 (cutter 2 2) m (right_place 2) (-1).
Proof.
  intros m s E. unfold prism_tree in E. cbv zeta in E. cbn [mv] in E.
  destruct s as [f b|i op b l r]; [discriminate|]. cbn [erase] in E. injection E as -> El Er.
  destruct l as [f b'|i' op' b' l' r']; [discriminate|]. cbn [erase] in El. injection El as -> El Er'.
  destruct r as [f3 b3|]; [|discriminate]. destruct l' as [f1 b1|]; [|discriminate]. destruct r' as [f2 b2|]; [|discriminate].
  cbn [erase] in *. injection El as A1 A2 A3 A4. injection Er' as B1 B2 B3 B4. injection Er as C1 C2 C3 C4.
  exists i, b, i', b', f1, b1, f2, b2, f3, b3. split; [reflexivity|]. repeat split; auto.
Qed.

Section Scene.
  Variables (asort : list xr -> list nat) (gl : material) (s : shape) (g : surf) (bx : box).
  Hypotheses (AS : argsort_ok asort) (ER : erase s = prism_tree 2 2 gl) (TO : tree_ok s) (BC : boxes_current s)
    (GO : surf_ok g) (GP : s_prim g = PSphere 9) (GW : s_world g = mid) (GB : boxes_current (Leaf g bx)).
  Let comps := [s; Leaf g bx].
  Lemma shell_placed : forall x y z, placed g (pt x y z) <-> x * x + y * y + z * z <= 81.
  Proof.
    intros x y z. rewrite (placed_of g (pt x y z)); auto; [|rewrite GW, mapply_mid; reflexivity].
    rewrite GP. unfold pt; cbn [solid vx vy vz]. split; lra.
  Qed.
  Lemma prism_inside : forall x z, inside s (pt x 0 z) <->
    0 <= z + sqrt 3 / 2 /\ z + sqrt 3 / 2 < sqrt 3 * (x + 1) /\ z + sqrt 3 / 2 < sqrt 3 * (1 - x).
  Proof.
    intros x z. rewrite inside_region, ER, prism_region by lra. rewrite Rabs_R0.
    replace (sqrt 3 / 4 * 2) with (sqrt 3 / 2) by field. replace (2 / 2) with 1 by field. intuition lra.
  Qed.
  Definition flat_ray (x z e f : R) : ray := Ray (pt x 0 z) (V4 e 0 f 0).
  Lemma flat_at : forall x z e f t, ray_at (flat_ray x z e f) t = pt (x + t * e) 0 (z + t * f).
  Proof. intros. unfold ray_at, flat_ray, pt; cbn [origin direction vx vy vz vw]. f_equal; ring. Qed.
  Lemma flat_world : forall x z e f, e <> 0 -> world_ray (flat_ray x z e f).
  Proof. intros x z e f E. split; [reflexivity|]. split; [reflexivity|]. intros (X & _). apply E. exact X. Qed.
  Definition oblique (e f : R) : Prop :=
    clear e /\ clear f /\ clear (sqrt 3 / 2 * e - f / 2) /\ clear (e / 2 + sqrt 3 / 2 * f) /\ clear (sqrt 3 / 2 * e + f / 2) /\ clear (- e / 2 + sqrt 3 / 2 * f).
  Definition seen (r : ray) (f : surf) : Prop := surf_ok f /\ world_ray r /\ good_local (s_prim f) (ray_map (s_obj f) r).
  Lemma all_visible : forall x z e f, e <> 0 -> oblique e f ->
    (forall s', In s' comps -> visible (flat_ray x z e f) s') /\
    exists f1 f2 f3, surface_ids s = [f1; f2; f3] /\ seen (flat_ray x z e f) f1 /\ seen (flat_ray x z e f) f2 /\ seen (flat_ray x z e f) f3 /\ seen (flat_ray x z e f) g /\
      is_plane (s_prim f1) = false /\ is_plane (s_prim f2) = false /\ is_plane (s_prim f3) = false /\ sheet s = false /\
      is_part f1 (from_sides 2 2 2) gl (mmul (lift 2) mid) 1 /\
      is_part f2 (cutter 2 2) gl (left_place 2) (-1) /\ is_part f3 (cutter 2 2) gl (right_place 2) (-1).
  Proof.
    intros x z e f E (O1 & O2 & O3 & O4 & O5 & O6).
    destruct (prism_shape _ _ ER) as (i & b & i' & b' & f1 & b1 & f2 & b2 & f3 & b3 & ES & P1 & P2 & P3).
    assert (TO' := TO). rewrite ES in TO'. cbn [tree_ok] in TO'. destruct TO' as ((K1 & K2) & K3).
    assert (C0 : clear 0) by (left; reflexivity).
    assert (L1 : good_local (s_prim f1) (ray_map (s_obj f1) (flat_ray x z e f))).
    { rewrite (proj1 P1). split; [|exact Logic.I]. unfold clear_ray, from_sides, ray_map, flat_ray. cbn [direction]. rewrite (block_dir gl) by auto. auto. }
    assert (L2 : good_local (s_prim f2) (ray_map (s_obj f2) (flat_ray x z e f))).
    { rewrite (proj1 P2). split; [|exact Logic.I]. unfold clear_ray, cutter, from_sides, ray_map, flat_ray. cbn [direction]. rewrite (left_dir gl) by auto. auto. }
    assert (L3 : good_local (s_prim f3) (ray_map (s_obj f3) (flat_ray x z e f))).
    { rewrite (proj1 P3). split; [|exact Logic.I]. unfold clear_ray, cutter, from_sides, ray_map, flat_ray. cbn [direction]. rewrite (right_dir gl) by auto. auto. }
    assert (L4 : good_local (s_prim g) (ray_map (s_obj g) (flat_ray x z e f))) by (rewrite GP; split; exact Logic.I).
    pose proof (flat_world x z e f E) as WR.
    assert (NP1 : is_plane (s_prim f1) = false) by (rewrite (proj1 P1); reflexivity).
    assert (NP2 : is_plane (s_prim f2) = false) by (rewrite (proj1 P2); reflexivity).
    assert (NP3 : is_plane (s_prim f3) = false) by (rewrite (proj1 P3); reflexivity).
    split.
    - intros s' [<- | [<- | []]].
      + split; [right; rewrite ES; intros h [<- | [<- | [<- | []]]]; auto|]. split; [exact TO|]. split; [exact BC|].
        rewrite ES. split; [cbn; repeat split|]. cbn [good_ray]. unfold clear_dir, flat_ray; cbn [direction vx vy vz]. fold (flat_ray x z e f). auto 10.
      + split; [right; intros h [<- | []]; rewrite GP; reflexivity|]. split; [exact GO|]. split; [exact GB|]. split; [exact Logic.I|exact L4].
    - exists f1, f2, f3. rewrite ES. unfold seen. repeat (split; auto).
  Qed.

  Lemma edges_here : forall r f1 f2 f3 t, surface_ids s = [f1; f2; f3] -> is_plane (s_prim f1) = false -> is_plane (s_prim f2) = false -> is_plane (s_prim f3) = false ->
    count_occ xr_eq_dec (flat_map (edges r) (flat_map surface_ids comps)) t =
    (count_occ xr_eq_dec (surf_hits f1 r) t + (count_occ xr_eq_dec (surf_hits f2 r) t + (count_occ xr_eq_dec (surf_hits f3 r) t + count_occ xr_eq_dec (surf_hits g r) t)))%nat.
  Proof.
    intros r f1 f2 f3 t E N1 N2 N3. unfold comps. cbn [flat_map surface_ids]. rewrite E. cbn [app flat_map]. unfold edges. rewrite N1, N2, N3, GP. cbn [is_plane].
    rewrite !count_occ_app. cbn [count_occ]. lia.
  Qed.
  Lemma shell_sheet : sheet (Leaf g bx) = false.
  Proof. cbn [sheet]. rewrite GP. reflexivity. Qed.

  (** Through the air to the middle of the left face *)
  Definition ray_in (e f : R) : ray := flat_ray (- (1 / 2) - 1 / 10 * e) (- (1 / 10) * f) e f.
  Lemma ray_in_at : forall e f t, ray_at (ray_in e f) t = pt (- (1 / 2) + (t - 1 / 10) * e) 0 ((t - 1 / 10) * f).
  Proof. intros e f t. unfold ray_in. rewrite flat_at. f_equal; ring. Qed.
  Lemma in_hit : forall e f, 9 / 10 < e < 102 / 100 -> 1 / 10 < f < 4 / 10 -> 1 < sqrt 3 * e - f < 2 -> 1 < e + sqrt 3 * f < 2 -> oblique e f ->
    exists f2, In f2 (surface_ids s) /\ is_part f2 (cutter 2 2) gl (left_place 2) (-1) /\ first_hit asort comps (ray_in e f) (1 / 10) (s_id f2).
  Proof.
    intros e f A B C D OB. destruct sqrt3 as [K2 K]. pose proof cut2_range as CR.
    destruct (all_visible (- (1 / 2) - 1 / 10 * e) (- (1 / 10) * f) e f ltac:(lra) OB)
      as (V & f1 & f2 & f3 & SI & (O1 & W & G1) & (O2 & _ & G2) & (O3 & _ & G3) & (O4 & _ & G4) & N1 & N2 & N3 & SH & P1 & P2 & P3). fold (ray_in e f) in *.
    set (r := ray_in e f) in *. pose proof (ray_in_at e f) as AT. fold r in AT. clearbody r.
    exists f2. split; [rewrite SI; simpl; auto|]. split; [exact P2|].
    set (c := sqrt 3 * e - f) in *. set (d := e + sqrt 3 * f) in *.
    assert (X2 : forall t, - (5 / 10) <= t <= 2 / 10 -> (placed f2 (ray_at r t) <-> t <= 1 / 10)).
    { intros t T. rewrite AT, (left_wedge gl) by auto. unfold wedge. rewrite Rabs_R0.
      replace (sqrt 3 * (- (1 / 2) + (t - 1 / 10) * e + 1) - ((t - 1 / 10) * f + sqrt 3 / 2)) with ((t - 1 / 10) * c) by (unfold c; field).
      replace (- (1 / 2) + (t - 1 / 10) * e + 1 + sqrt 3 * ((t - 1 / 10) * f + sqrt 3 / 2)) with (1 / 2 + sqrt 3 * sqrt 3 / 2 + (t - 1 / 10) * d) by (unfold d; field).
      rewrite K2. clearbody c d. split; intro H; [nra|]. assert (-1 <= (t - 1 / 10) * c * (6 / 10)) by nra. assert ((t - 1 / 10) * c <= 0) by nra. assert (-2 <= (t - 1 / 10) * d <= 1) by nra. repeat split; lra. }
    assert (X3 : forall t, 0 <= t <= 2 / 10 -> ~ placed f3 (ray_at r t)).
    { intros t T. rewrite AT, (right_wedge gl) by auto. intros ((_ & H) & _).
      assert (Y1 : (t - 1 / 10) * e <= 12 / 100) by nra. assert (Y2 : (t - 1 / 10) * f <= 5 / 100) by nra.
      assert (sqrt 3 * ((t - 1 / 10) * e) <= 1 / 2) by nra. lra. }
    assert (X1 : forall t, - (2 / 10) <= t <= 2 / 10 -> placed f1 (ray_at r t)).
    { intros t T. rewrite AT, (block_placed gl) by auto. repeat split; nra. }
    assert (X4 : forall t, - (2 / 10) <= t <= 2 / 10 -> placed g (ray_at r t)).
    { intros t T. rewrite AT, shell_placed. assert (Y1 : -1 <= (t - 1 / 10) * e <= 1) by (split; nra). assert (Y2 : -1 <= (t - 1 / 10) * f <= 1) by (split; nra).
      pose proof (square_in (- (1 / 2) + (t - 1 / 10) * e) 2 ltac:(lra)). pose proof (square_in ((t - 1 / 10) * f) 1 ltac:(lra)). lra. }
    destruct (hits_chord f2 r O2 W G2 (- (5 / 10)) (1 / 10)) as (t0 & t1 & E2 & T0 & T1 & PL); [apply X2; lra|apply X2; lra|lra|].
    assert (T1' : t1 = 1 / 10).
    { destruct (Rlt_dec (1 / 10) t1) as [L|L]; [exfalso|lra]. destruct (Rlt_dec t1 (2 / 10)).
      - assert (placed f2 (ray_at r t1)) by (apply PL; lra). apply X2 in H; lra.
      - assert (placed f2 (ray_at r (2 / 10))) by (apply PL; lra). apply X2 in H; lra. }
    subst t1. refine (proj2 (first_crossing asort AS comps r (1 / 10) (s_id f2) W V ltac:(lra) _) _).
    - intros t T. rewrite (edges_here _ f1 f2 f3); auto.
      rewrite (count_none (surf_hits f1 r)), (count_none (surf_hits f3 r)), (count_none (surf_hits g r)), E2.
      + pose proof (count_pair t0 (1 / 10) t ltac:(lra)). lia.
      + apply (hits_past g r O4 W G4 (- (2 / 10)) (2 / 10) (1 / 10)); try (apply X4); lra.
      + apply (hits_none f3 r O3 W G3 (1 / 10)); [|lra]. intros t' T'. apply X3. lra.
      + apply (hits_past f1 r O1 W G1 (- (2 / 10)) (2 / 10) (1 / 10)); try (apply X1); lra.
    - assert (IN : forall t, 0 <= t <= 2 / 10 -> (inside s (ray_at r t) <-> 1 / 10 < t)).
      { intros t T. rewrite AT, prism_inside.
        assert (Q1 : sqrt 3 * (- (1 / 2) + (t - 1 / 10) * e + 1) - ((t - 1 / 10) * f + sqrt 3 / 2) = (t - 1 / 10) * c) by (unfold c; field).
        assert (Y1 : (t - 1 / 10) * e <= 12 / 100) by nra. assert (Y2 : -5 / 100 <= (t - 1 / 10) * f <= 5 / 100) by nra.
        assert (sqrt 3 * ((t - 1 / 10) * e) <= 1 / 2) by nra. clearbody c. split; [intro; nra|]. intro. split; [lra|]. split; [nra|lra]. }
      split.
      + intros s' [<- | [<- | []]]; unfold undisturbed.
        * rewrite SH. right. exists []. intros t T _. rewrite IN; lra.
        * rewrite shell_sheet. left. exists []. intros t T _. apply X4. lra.
      + exists s, f2. split; [left; reflexivity|]. split; [|split; [rewrite SI; simpl; auto|split; [rewrite E2; simpl; auto|reflexivity]]].
        unfold meets. rewrite SH. right. exists (1 / 20). split; [lra|]. split; intros t T; rewrite IN; lra.
  Qed.

  (** Through the glass to the right face *)
  Definition ray_mid (e f : R) : ray := flat_ray (- (1 / 2) + ray_offset_value * e) (ray_offset_value * f) e f.
  Lemma ray_mid_at : forall e f t, ray_at (ray_mid e f) t = pt (- (1 / 2) + (ray_offset_value + t) * e) 0 ((ray_offset_value + t) * f).
  Proof. intros e f t. unfold ray_mid. rewrite flat_at. f_equal; ring. Qed.
  Definition reach_mid (e f : R) : R := sqrt 3 / (sqrt 3 * e + f) - ray_offset_value.
  Lemma mid_hit : forall e f, 98 / 100 < e < 102 / 100 -> - (1 / 10) < f < 1 / 10 -> oblique e f ->
    exists f3, In f3 (surface_ids s) /\ is_part f3 (cutter 2 2) gl (right_place 2) (-1) /\ first_hit asort comps (ray_mid e f) (reach_mid e f) (s_id f3).
  Proof.
    intros e f A B OB. destruct sqrt3 as [K2 K]. pose proof cut2_range as CR.
    assert (DE : 0 < ray_offset_value < 1 / 100000) by (unfold ray_offset_value; lra).
    destruct (all_visible (- (1 / 2) + ray_offset_value * e) (ray_offset_value * f) e f ltac:(lra) OB)
      as (V & f1 & f2 & f3 & SI & (O1 & W & G1) & (O2 & _ & G2) & (O3 & _ & G3) & (O4 & _ & G4) & N1 & N2 & N3 & SH & P1 & P2 & P3). fold (ray_mid e f) in *.
    set (r := ray_mid e f) in *. pose proof (ray_mid_at e f) as AT. fold r in AT. clearbody r.
    set (c := sqrt 3 * e + f). assert (CC : 15 / 10 < c < 2) by (unfold c; split; nra).
    set (o := ray_offset_value) in *. set (q := reach_mid e f).
    assert (QC : (o + q) * c = sqrt 3) by (unfold q, reach_mid; fold c; fold o; field; lra).
    assert (Q1 : 8 / 10 < q < 11 / 10). { clearbody q o. split; unfold c in *; nra. }
    clearbody q o. exists f3. split; [rewrite SI; simpl; auto|]. split; [exact P3|].
    set (d := e - sqrt 3 * f). assert (DD : 7 / 10 < d < 13 / 10) by (unfold d; split; nra).
    assert (X3 : forall t, 0 <= t <= 12 / 10 -> (placed f3 (ray_at r t) <-> q <= t)).
    { intros t T. rewrite AT, (right_wedge gl) by auto. unfold wedge. rewrite Rabs_R0.
      replace (sqrt 3 * (1 - (- (1 / 2) + (o + t) * e)) - ((o + t) * f + sqrt 3 / 2)) with (sqrt 3 - (o + t) * c) by (unfold c; field).
      replace (1 - (- (1 / 2) + (o + t) * e) + sqrt 3 * ((o + t) * f + sqrt 3 / 2)) with (3 / 2 + sqrt 3 * sqrt 3 / 2 - (o + t) * d) by (unfold d; field).
      rewrite <- QC at 1 2. rewrite K2. clearbody c d. replace ((o + q) * c - (o + t) * c) with (c * (q - t)) by ring.
      split; intro H; [nra|]. assert (c * (q - t) <= 0) by nra. assert (- 1 <= c * (q - t)) by nra. assert (0 <= (o + t) * d <= 2) by nra. repeat split; lra. }
    assert (X2 : forall t, 0 <= t <= 12 / 10 -> ~ placed f2 (ray_at r t)).
    { intros t T. rewrite AT, (left_wedge gl) by auto. intros ((_ & H) & _).
      assert (Y : 1 < sqrt 3 * e - f) by nra. assert (Y' : 0 < (o + t) * (sqrt 3 * e - f)) by (apply Rmult_lt_0_compat; lra).
      replace (sqrt 3 * (- (1 / 2) + (o + t) * e + 1) - ((o + t) * f + sqrt 3 / 2)) with ((o + t) * (sqrt 3 * e - f)) in H by field. lra. }
    assert (X1 : forall t, - (2 / 10) <= t <= 12 / 10 -> placed f1 (ray_at r t)).
    { intros t T. rewrite AT, (block_placed gl) by auto. repeat split; nra. }
    assert (X4 : forall t, - (2 / 10) <= t <= 12 / 10 -> placed g (ray_at r t)).
    { intros t T. rewrite AT, shell_placed. assert (Y1 : - (5 / 2) <= (o + t) * e <= 5 / 2) by (split; nra). assert (Y2 : - 1 <= (o + t) * f <= 1) by (split; nra).
      pose proof (square_in (- (1 / 2) + (o + t) * e) 3 ltac:(lra)). pose proof (square_in ((o + t) * f) 1 ltac:(lra)). lra. }
    destruct (hits_chord f3 r O3 W G3 q (12 / 10)) as (t0 & t1 & E3 & T0 & T1 & PL); [apply X3; lra|apply X3; lra|lra|].
    assert (T0' : t0 = q).
    { destruct (Rlt_dec t0 q) as [L|L]; [exfalso|lra]. destruct (Rlt_dec 0 t0).
      - assert (placed f3 (ray_at r t0)) by (apply PL; lra). apply X3 in H; lra.
      - assert (placed f3 (ray_at r (1 / 2))) by (apply PL; lra). apply X3 in H; lra. }
    subst t0. refine (proj2 (first_crossing asort AS comps r q (s_id f3) W V ltac:(lra) _) _).
    - intros t T. rewrite (edges_here _ f1 f2 f3); auto.
      rewrite (count_none (surf_hits f1 r)), (count_none (surf_hits f2 r)), (count_none (surf_hits g r)), E3.
      + pose proof (count_pair q t1 t ltac:(lra)). lia.
      + apply (hits_past g r O4 W G4 (- (2 / 10)) (12 / 10) q); try (apply X4); lra.
      + apply (hits_none f2 r O2 W G2 q); [|lra]. intros t' T'. apply X2. lra.
      + apply (hits_past f1 r O1 W G1 (- (2 / 10)) (12 / 10) q); try (apply X1); lra.
    - assert (IN : forall t, 0 <= t <= 12 / 10 -> (inside s (ray_at r t) <-> t < q)).
      { intros t T. rewrite AT, prism_inside.
        assert (Y1 : sqrt 3 * (1 - (- (1 / 2) + (o + t) * e)) - ((o + t) * f + sqrt 3 / 2) = c * (q - t)) by (transitivity (sqrt 3 - (o + t) * c); [unfold c; field|rewrite <- QC; ring]).
        assert (Y : 1 < sqrt 3 * e - f) by nra. assert (Y2 : 0 < (o + t) * (sqrt 3 * e - f)) by (apply Rmult_lt_0_compat; lra).
        assert (Y3 : sqrt 3 * (- (1 / 2) + (o + t) * e + 1) - ((o + t) * f + sqrt 3 / 2) = (o + t) * (sqrt 3 * e - f)) by field.
        pose proof (prod_in (o + t) (13 / 10) f (1 / 10) ltac:(lra) ltac:(lra)). clearbody c. split.
        - intros (_ & _ & H'). apply (Rmult_lt_reg_l c); lra.
        - intro H'. assert (0 < c * (q - t)) by (apply Rmult_lt_0_compat; lra). split; [lra|]. split; lra. }
      split.
      + intros s' [<- | [<- | []]]; unfold undisturbed.
        * rewrite SH. left. exists []. intros t T _. rewrite IN; lra.
        * rewrite shell_sheet. left. exists []. intros t T _. apply X4. lra.
      + exists s, f3. split; [left; reflexivity|]. split; [|split; [rewrite SI; simpl; auto|split; [rewrite E3; simpl; auto|reflexivity]]].
        unfold meets. rewrite SH. left. exists (1 / 20). split; [lra|]. split; intros t T; rewrite IN; lra.
  Qed.

  (** and on to the absorbing ball *)
  Definition ray_out (x e f : R) : ray := flat_ray (x + ray_offset_value * e) (sqrt 3 * (1 / 2 - x) + ray_offset_value * f) e f.
  Lemma ray_out_at : forall x e f t, ray_at (ray_out x e f) t = pt (x + (ray_offset_value + t) * e) 0 (sqrt 3 * (1 / 2 - x) + (ray_offset_value + t) * f).
  Proof. intros x e f t. unfold ray_out. rewrite flat_at. f_equal; ring. Qed.
  Lemma out_hit : forall x e f, 4 / 10 < x < 6 / 10 -> 9 / 10 < e < 102 / 100 -> - (4 / 10) < f < - (1 / 10) -> oblique e f ->
    exists q, 0 < q /\ first_hit asort comps (ray_out x e f) q (s_id g).
  Proof.
    intros x e f XX A B OB. destruct sqrt3 as [K2 K]. pose proof cut2_range as CR.
    assert (K' : 173 / 100 < sqrt 3 < 174 / 100) by (split; nra).
    assert (DE : 0 < ray_offset_value < 1 / 100000) by (unfold ray_offset_value; lra).
    destruct (all_visible (x + ray_offset_value * e) (sqrt 3 * (1 / 2 - x) + ray_offset_value * f) e f ltac:(lra) OB)
      as (V & f1 & f2 & f3 & SI & (O1 & W & G1) & (O2 & _ & G2) & (O3 & _ & G3) & (O4 & _ & G4) & N1 & N2 & N3 & SH & P1 & P2 & P3). fold (ray_out x e f) in *.
    set (r := ray_out x e f) in *. pose proof (ray_out_at x e f) as AT. fold r in AT. clearbody r.
    set (o := ray_offset_value) in *. clearbody o.
    set (c := sqrt 3 * e + f). assert (CC : 11 / 10 < c < 18 / 10) by (unfold c; split; nra).
    set (d := e - sqrt 3 * f). assert (DD : 105 / 100 < d < 172 / 100) by (unfold d; split; nra).
    assert (ZZ : - (2 / 10) < sqrt 3 * (1 / 2 - x) < 2 / 10) by (split; nra).
    assert (X3 : forall t, 0 <= t -> (placed f3 (ray_at r t) <-> (o + t) * c <= 2 * cut 2 /\ (o + t) * d <= 4 * (1 - x))).
    { intros t T. rewrite AT, (right_wedge gl) by auto. unfold wedge. rewrite Rabs_R0.
      replace (sqrt 3 * (1 - (x + (o + t) * e)) - (sqrt 3 * (1 / 2 - x) + (o + t) * f + sqrt 3 / 2)) with (- ((o + t) * c)) by (unfold c; field).
      replace (1 - (x + (o + t) * e) + sqrt 3 * (sqrt 3 * (1 / 2 - x) + (o + t) * f + sqrt 3 / 2)) with ((1 + sqrt 3 * sqrt 3) * (1 - x) - (o + t) * d) by (unfold d; field).
      rewrite K2. clearbody c d. assert (0 <= (o + t) * c) by nra. assert (0 <= (o + t) * d) by nra. split; intro H'; [lra|repeat split; lra]. }
    assert (X2 : forall t, 0 <= t -> ~ placed f2 (ray_at r t)).
    { intros t T. rewrite AT, (left_wedge gl) by auto. intros ((_ & H) & _). 
      assert (Y : 1 < sqrt 3 * e - f) by nra. assert (Y' : 0 < (o + t) * (sqrt 3 * e - f)) by (apply Rmult_lt_0_compat; lra).
      replace (sqrt 3 * (x + (o + t) * e + 1) - (sqrt 3 * (1 / 2 - x) + (o + t) * f + sqrt 3 / 2)) with (2 * (sqrt 3 * x) + (o + t) * (sqrt 3 * e - f)) in H by field.
      assert (0 < sqrt 3 * x) by (apply Rmult_lt_0_compat; lra). lra. }
    assert (X1 : forall t, 0 <= t -> placed f1 (ray_at r t) -> t <= 7 / 10).
    { intros t T. rewrite AT, (block_placed gl) by auto. intros (H & _). nra. }
    assert (X1' : forall t, - (1 / 10) <= t <= 1 / 10 -> placed f1 (ray_at r t)).
    { intros t T. rewrite AT, (block_placed gl) by auto. assert (- (2 / 10) <= (o + t) * e <= 2 / 10) by nra. assert (- (1 / 10) <= (o + t) * f <= 1 / 10) by nra. repeat split; lra. }
    assert (X4 : forall t, - (1 / 10) <= t <= 6 -> placed g (ray_at r t)).
    { intros t T. rewrite AT, shell_placed. assert (Y1 : - 1 <= (o + t) * e <= 7) by (split; nra). assert (Y2 : - 3 <= (o + t) * f <= 1) by (split; nra).
      pose proof (square_in (x + (o + t) * e) 8 ltac:(lra)). pose proof (square_in (sqrt 3 * (1 / 2 - x) + (o + t) * f) 4 ltac:(lra)). lra. }
    destruct (hits_chord g r O4 W G4 (- (1 / 10)) 6) as (t0 & t1 & E4 & T0 & T1 & PL); [apply X4; lra|apply X4; lra|lra|].
    destruct (hits_chord f1 r O1 W G1 (- (1 / 10)) (1 / 10)) as (u0 & u1 & E1 & U0 & U1 & PU); [apply X1'; lra|apply X1'; lra|lra|].
    destruct (hits_chord f3 r O3 W G3 0 (75 / 100)) as (v0 & v1 & E3 & V0 & V1 & PV); [apply X3; [lra|clearbody c d; split; nra]|apply X3; [lra|clearbody c d; split; nra]|lra|].
    assert (U1' : u1 <= 7 / 10) by (apply X1; [lra|]; apply PU; lra).
    assert (V1' : v1 <= 3) by (assert (H : placed f3 (ray_at r v1)) by (apply PV; lra); apply X3 in H; [clearbody c d; nra|lra]).
    exists t1. split; [lra|].
    refine (proj2 (first_crossing asort AS comps r t1 (s_id g) W V ltac:(lra) _) _).
    - intros t T. rewrite (edges_here _ f1 f2 f3); auto. rewrite (count_none (surf_hits f2 r)), E1, E3, E4.
      2:{ apply (hits_none f2 r O2 W G2 t1); [|lra]. intros t' T'. apply X2. lra. }
      assert (LATE : forall a b, a <= 0 -> 0 < b -> count_occ xr_eq_dec [Fin a; Fin b] (Fin t) = if Req_EM_T t b then 1%nat else 0%nat).
      { intros a b LA LB. cbn [count_occ]. destruct (xr_eq_dec (Fin a) (Fin t)) as [X|_]; [injection X as X; lra|].
        destruct (xr_eq_dec (Fin b) (Fin t)) as [X|X], (Req_EM_T t b); auto; exfalso; [injection X as X; lra|apply X; congruence]. }
      rewrite !LATE by lra. destruct (Req_EM_T t u1), (Req_EM_T t v1), (Req_EM_T t t1); try lia; exfalso; lra.
    - split.
      + intros s' [<- | [<- | []]]; unfold undisturbed.
        * rewrite SH. right. exists []. intros t T _. rewrite AT, prism_inside. intros (_ & _ & H).
          assert (Y : sqrt 3 * ((o + t) * e) + (o + t) * f = (o + t) * c) by (unfold c; ring). clearbody c. assert (0 <= (o + t) * c) by nra. nra.
        * rewrite shell_sheet. left. exists []. intros t T _. apply PL. lra.
      + exists (Leaf g bx), g. split; [right; left; reflexivity|]. split; [|split; [left; reflexivity|split; [rewrite E4; simpl; auto|reflexivity]]].
        unfold meets. rewrite shell_sheet. left. exists 1. split; [lra|]. split; intros t T; cbn [inside]; rewrite PL; lra.
  Qed.
End Scene.
