(** * ComponentFacts3: the prism, baffles, and what goes wrong *)
From Coq Require Import Reals Lra Lia List Bool ZArith Psatz.
Import ListNotations.
From Verif Require Import XR XRFacts Arr Lin LinFacts Prim Csg Surf SpecGeom SpecTree CsgProps World SpecWorld
  WorldFacts3 WorldFacts5 WorldProps Components SpecComponents BuildFacts ComponentFacts ComponentFacts2.
Open Scope R_scope.

Lemma built_moved : forall asort cs l mo env T (P : shape -> Prop), argsort_ok asort -> track (cs ++ [CMotion l mo]) [] = Some env ->
  nth_error env l = Some (Some T) -> right_leaf T = true -> prims_ok T ->
  (forall s, erase s = T -> boxes_current s -> (forall q, inside s q <-> region T q) -> P s) ->
  built asort (Makes (cs ++ [CMotion l mo]) l) P.
Proof.
  intros asort cs l mo env T P AO E N RL PO K. eexists _, l. split; [reflexivity|]. intros h Nh.
  destruct (built_component asort cs l mo h env _ AO Nh E N RL PO) as (h' & s & R & Sh & Er & TO & BC).
  exists h', s. split; [exact R|]. split; [exact Sh|]. split; [exact TO|]. split; [exact BC|]. apply K; auto.
  intros q. rewrite inside_region, Er. reflexivity.
Qed.

(** ** equilateral_prism *)
Definition mroty (s c : R) : mat := M4 (V4 c 0 s 0) (V4 0 1 0 0) (V4 (- s) 0 c 0) (V4 0 0 0 1).
Lemma mapply_mmove : forall u v c x y z w, mapply (mmove u v c) (V4 x y z w) = V4 (x + w * u) (y + w * v) (z + w * c) w.
Proof. intros. unfold mmove, mapply, vdot; cbn [vx vy vz vw row0 row1 row2 row3]. f_equal; ring. Qed.
Lemma mapply_mroty : forall s c x y z w, mapply (mroty s c) (V4 x y z w) = V4 (c * x + s * z) y (- s * x + c * z) w.
Proof. intros. unfold mroty, mapply, vdot; cbn [vx vy vz vw row0 row1 row2 row3]. f_equal; ring. Qed.
Lemma leaf_turned_y : forall p m k s c a b u v x y z, s * s + c * c = 1 ->
  (region (TLeaf p m (mmul (mmove a 0 b) (mmul (mroty s c) (mmul (mmove u 0 v) mid))) k) (pt x y z) <->
   solid p (pt (c * (x - a) - s * (z - b) - u) y (s * (x - a) + c * (z - b) - v))).
Proof.
  intros p m k s c a b u v x y z H. rewrite mmul_mid_r. apply leaf_at; [reflexivity| |].
  - unfold pt. rewrite !mapply_mmul, mapply_mmove, mapply_mroty, mapply_mmove. f_equal.
    + transitivity ((s * s + c * c) * (x - a) + a); [ring|rewrite H; ring].
    + ring.
    + transitivity ((s * s + c * c) * (z - b) + b); [ring|rewrite H; ring].
  - intros [x' y' z' w'] V E. rewrite !mapply_mmul, mapply_mmove, mapply_mroty, mapply_mmove in E. cbn [vw] in V. subst w'. unfold pt in *.
    injection E as Ex Ey Ez. rewrite <- Ex, <- Ez, <- Ey. f_equal.
    + transitivity ((s * s + c * c) * (x' + u) - u); [rewrite H; ring|ring].
    + ring.
    + transitivity ((s * s + c * c) * (z' + v) - v); [rewrite H; ring|ring].
Qed.
Lemma sin30 : sin (30 * PI / 180) = 1 / 2.
Proof. replace (30 * PI / 180) with (PI / 6) by field. apply sin_PI6. Qed.
Lemma cos30 : cos (30 * PI / 180) = sqrt 3 / 2.
Proof. replace (30 * PI / 180) with (PI / 6) by field. apply cos_PI6. Qed.
Lemma sin60 : sin (60 * PI / 180) = sqrt 3 / 2.
Proof. replace (60 * PI / 180) with (PI / 3) by field. apply sin_PI3. Qed.
Lemma roty30 : motion_matrix (RotY 30 Deg) = Some (mroty (1 / 2) (sqrt 3 / 2)).
Proof. cbn. rewrite sin30, cos30. reflexivity. Qed.
Lemma roty_30 : motion_matrix (RotY (-30) Deg) = Some (mroty (- (1 / 2)) (sqrt 3 / 2)).
Proof.
  cbn. replace (-30 * PI / 180) with (- (30 * PI / 180)) by field. rewrite sin_neg, cos_neg, sin30, cos30. reflexivity.
Qed.
Lemma sqrt3 : sqrt 3 * sqrt 3 = 3 /\ 17 / 10 < sqrt 3 < 18 / 10.
Proof.
  assert (S := sqrt_sqrt 3 ltac:(lra)). pose proof (sqrt_pos 3). split; [exact S|]. split; nra.
Qed.
Definition prism_tree (side width : R) (m : material) : ptree :=
  let cut := 11 / 10 * side / (sqrt 3 / 2) in
  mv (mmove 0 0 (side / 2 * (1 - sqrt 3 / 2)))
    (TNode DIFFERENCE (TNode DIFFERENCE (TLeaf (from_sides side width side) m mid 1)
        (TLeaf (from_sides cut (11 / 10 * width) cut) m (mmul (mmove (- side / 2) 0 (- side / 2)) (mmul (mroty (1 / 2) (sqrt 3 / 2)) (mmul (mmove (- cut / 2) 0 (cut / 2)) mid))) (-1)))
      (TLeaf (from_sides cut (11 / 10 * width) cut) m (mmul (mmove (side / 2) 0 (- side / 2)) (mmul (mroty (- (1 / 2)) (sqrt 3 / 2)) (mmul (mmove (cut / 2) 0 (cut / 2)) mid))) (-1))).
Lemma from_sides_solid : forall a b c x y z, 0 <= a -> 0 <= b -> 0 <= c ->
  (solid (from_sides a b c) (pt x y z) <-> Rabs x <= a / 2 /\ Rabs y <= b / 2 /\ Rabs z <= c / 2).
Proof.
  intros a b c x y z A B C. simpl. replace (- a / 2) with (- (a / 2)) by field. replace (- b / 2) with (- (b / 2)) by field. replace (- c / 2) with (- (c / 2)) by field.
  rewrite !between_sym by lra. tauto.
Qed.
Lemma abs_le : forall x a, Rabs x <= a <-> - a <= x <= a.
Proof. intros. split; intro H; [unfold Rabs in H; destruct (Rcase_abs x); lra|apply Rabs_le; lra]. Qed.
Lemma prism_region : forall side width m x y z, 0 < side -> 0 < width ->
  (region (prism_tree side width m) (pt x y z) <->
   Rabs y <= width / 2 /\ 0 <= z + sqrt 3 / 4 * side /\
   z + sqrt 3 / 4 * side < sqrt 3 * (x + side / 2) /\ z + sqrt 3 / 4 * side < sqrt 3 * (side / 2 - x)).
Proof.
  intros side width m x y z S W. destruct sqrt3 as [K2 K]. unfold prism_tree. cbv zeta.
  set (k := sqrt 3) in *. set (cut := 11 / 10 * side / (k / 2)).
  assert (CUT : cut * k = 22 / 10 * side) by (unfold cut; field; lra).
  assert (C1 : 12 / 10 * side <= cut).
  { apply (Rmult_le_reg_r k); [lra|]. rewrite CUT. nra. }
  rewrite (region_mv (mmove 0 0 (side / 2 * (1 - k / 2))) (mmove 0 0 (- (side / 2 * (1 - k / 2))))).
  2:{ split; rewrite mmove_mmove; unfold mmove, mid; f_equal; f_equal; lra. }
  2:{ reflexivity. }
  replace (mapply (mmove 0 0 (- (side / 2 * (1 - k / 2)))) (pt x y z)) with (pt x y (z - side / 2 * (1 - k / 2)))
    by (unfold pt; rewrite mapply_mmove; f_equal; ring).
  change (region (TNode DIFFERENCE (TNode DIFFERENCE ?a ?b) ?c) ?q) with ((region a q /\ ~ region b q) /\ ~ region c q).
  assert (SC : 1 / 2 * (1 / 2) + k / 2 * (k / 2) = 1) by lra. assert (SC' : - (1 / 2) * - (1 / 2) + k / 2 * (k / 2) = 1) by lra.
  rewrite leaf_mid, (leaf_turned_y _ _ _ (1 / 2) (k / 2)), (leaf_turned_y _ _ _ (- (1 / 2)) (k / 2)) by assumption.
  rewrite !from_sides_solid by lra. rewrite !abs_le.
  set (v := z + k / 4 * side). replace (z - side / 2 * (1 - k / 2)) with (v - side / 2) by (unfold v; field).
  set (u := x + side / 2). replace x with (u - side / 2) by (unfold u; ring). clearbody u v. clear x z.
  replace (- (side / 2)) with (- side / 2) by field.
  replace (u - side / 2 - - side / 2) with u by field. replace (v - side / 2 - - side / 2) with v by field.
  replace (u - side / 2 - side / 2) with (- (side - u)) by field. replace (u - side / 2 + side / 2) with u by field.
  replace (side / 2 - (u - side / 2)) with (side - u) by field.
  split.
  - intros [[B N1] N2]. split; [lra|]. split; [lra|]. split.
    + destruct (Rlt_dec v (k * u)); [auto|]. exfalso. apply N1.
      assert (k * u <= v) by lra. assert (0 <= u) by lra. assert (v <= side) by lra.
      assert (3 * u <= k * v) by nra. assert (k * v <= 2 * side) by nra.
      repeat split; try lra; nra.
    + destruct (Rlt_dec v (k * (side - u))); [auto|]. exfalso. apply N2. set (u' := side - u) in *.
      assert (k * u' <= v) by lra. assert (0 <= u') by (unfold u'; lra). assert (v <= side) by lra.
      assert (3 * u' <= k * v) by nra. assert (k * v <= 2 * side) by nra.
      repeat split; try lra; nra.
  - intros (Y & V & U1 & U2).
    assert (0 < u) by nra. assert (0 < side - u) by nra. assert (2 * v < k * side) by nra. assert (v < side) by nra.
    split; [split; [lra|]|].
    + intros [X _]. nra.
    + intros [X _]. nra.
Qed.
Lemma prism_built : forall asort side width m (P : shape -> Prop), argsort_ok asort ->
  (forall s, erase s = prism_tree side width m -> boxes_current s -> (forall q, inside s q <-> region (prism_tree side width m) q) -> P s) ->
  built asort (equilateral_prism side width m) P.
Proof.
  intros asort side width m P AO K. unfold equilateral_prism. cbv zeta. rewrite sin60.
  match goal with |- built _ (Makes [?a; ?b; ?c; ?d; ?e; ?f; ?g; ?h; ?i; ?j; ?k; ?l] _) _ =>
    change [a; b; c; d; e; f; g; h; i; j; k; l] with ([a; b; c; d; e; f; g; h; i; j; k] ++ [l]) end.
  unfold op_move_z. apply (built_moved asort _ _ _ [None; None; None; None; Some (prism_tree side width m)] (prism_tree side width m)); [exact AO| |reflexivity| | |exact K].
  - cbn [app track]. cbn [track_call prim_init from_sides app]. cbn [nth_error]. rewrite move_matrix. cbn [set_nth track]. cbn [track_call nth_error]. rewrite roty30.
    cbn [set_nth track]. cbn [track_call nth_error]. rewrite move_matrix. cbn [set_nth track]. cbn [track_call nth_error Nat.eqb]. cbn [set_nth app track].
    cbn [track_call prim_init app nth_error]. rewrite move_matrix. cbn [set_nth track]. cbn [track_call nth_error]. rewrite roty_30.
    cbn [set_nth track]. cbn [track_call nth_error]. rewrite move_matrix. cbn [set_nth track]. cbn [track_call nth_error Nat.eqb]. cbn [set_nth app track].
    cbn [track_call nth_error]. rewrite move_matrix. cbn [set_nth track]. reflexivity.
  - reflexivity.
  - unfold prism_tree. cbv zeta. apply prims_ok_mv; [reflexivity|]. simpl. repeat split; repeat (apply affine_mmul; [reflexivity|]); reflexivity.
Qed.
Lemma prism_solid : forall asort side width m, argsort_ok asort -> 0 < side -> 0 < width ->
  let h := sqrt 3 / 2 * side in
  let a := (- (side / 2), - (h / 2)) in let b := (side / 2, - (h / 2)) in let c := (0, h / 2) in
  built asort (equilateral_prism side width m) (fills
    (fun x y z => Rabs y <= width / 2 /\ strictly_in_triangle a b c x z)
    (fun x y z => Rabs y <= width / 2 /\ in_triangle a b c x z)) /\
  dist2 a b = side /\ dist2 b c = side /\ dist2 c a = side.
Proof.
  intros asort side width m AO S W h a b c. destruct sqrt3 as [K2 K]. split.
  - apply prism_built; [exact AO|]. intros s _ _ In x y z. rewrite In, prism_region by assumption. unfold a, b, c, h. clear In s. set (k := sqrt 3) in *. split.
    + intros (Y & wa & wb & wc & A & B & C & Sm & X & Z). cbn [fst snd] in X, Z. split; [exact Y|].
      assert (wa = 1 - wb - wc) by lra. subst wa x z. assert (0 < k * side) by nra. split; [nra|]. split; nra.
    + intros (Y & V & U1 & U2). split; [exact Y|]. cbn [fst snd].
      set (wc := (z + k / 4 * side) / (k / 2 * side)).
      assert (Z : z + k / 4 * side = wc * (k / 2 * side)) by (unfold wc; field; split; lra).
      assert (KS : 0 < k / 2 * side) by nra.
      assert (C0 : 0 <= wc) by (apply Rmult_le_pos; [lra|left; apply Rinv_0_lt_compat; lra]).
      set (xs := x / side). assert (X : x = xs * side) by (unfold xs; field; lra).
      assert (B1 : wc < 2 * xs + 1). { apply (Rmult_lt_reg_r (k / 2 * side)); [lra|]. rewrite <- Z. rewrite X in U1. lra. }
      assert (B2 : wc < 1 - 2 * xs). { apply (Rmult_lt_reg_r (k / 2 * side)); [lra|]. rewrite <- Z. rewrite X in U2. lra. }
      exists ((1 - wc) / 2 - xs), ((1 - wc) / 2 + xs), wc. clearbody xs wc. repeat split; try lra.
      * cbn [fst]. rewrite X. field.
      * cbn [snd]. transitivity (wc * (k / 2 * side) - k / 4 * side); [lra|field].
  - unfold dist2, a, b, c, h; cbn [fst snd]. set (k := sqrt 3) in *.
    split; [|split].
    + replace ((- (side / 2) - side / 2) * (- (side / 2) - side / 2) + (- (k / 2 * side / 2) - - (k / 2 * side / 2)) * (- (k / 2 * side / 2) - - (k / 2 * side / 2))) with (side * side) by field. apply sqrt_square. lra.
    + replace ((side / 2 - 0) * (side / 2 - 0) + (- (k / 2 * side / 2) - k / 2 * side / 2) * (- (k / 2 * side / 2) - k / 2 * side / 2)) with (side * side * (1 / 4 + k * k / 4)) by field. rewrite K2. replace (side * side * (1 / 4 + 3 / 4)) with (side * side) by field. apply sqrt_square. lra.
    + replace ((0 - - (side / 2)) * (0 - - (side / 2)) + (k / 2 * side / 2 - - (k / 2 * side / 2)) * (k / 2 * side / 2 - - (k / 2 * side / 2))) with (side * side * (1 / 4 + k * k / 4)) by field. rewrite K2. replace (side * side * (1 / 4 + 3 / 4)) with (side * side) by field. apply sqrt_square. lra.
Qed.
