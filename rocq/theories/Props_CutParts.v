(** * C130, continued: movements of composites that are interrupted *)
From Coq Require Import Reals List Bool Arith Lia Lra.
Import ListNotations.
From Verif Require Import XR XRFacts Arr Lin LinFacts Prim Csg Surf World SpecWorld WorldFacts WorldFacts4 WorldExamples WorldProps PinExact.
Open Scope R_scope.

(** A CSG object or group [l] is moved by [t] inside a [pin] context and the movement is
    interrupted when [l] itself has moved and its parts have not yet ([append_own], the first
    half of [transform]).  Then [__exit__] brings [l] back, and moves each of its parts by the
    inverse of [t] away from where it was. *)
Theorem C130_pin_displaces_parts_refuted : forall asort h0 l o0 w t i h1 h2,
  get h0 l = Some o0 -> is_inverse (get_world_transform o0) w -> is_inverse t i ->
  append_own asort l t h0 = Ok h1 ->
  pin_exit asort [l] (pin_enter h0 [l]) h1 = Ok h2 ->
  (exists o2, get h2 l = Some o2 /\ (times h1 l l = 1%nat -> get_world_transform o2 = get_world_transform o0)) /\
  (forall x ox, x <> l -> get h0 x = Some ox -> times h1 l x = 1%nat ->
     exists ox2, get h2 x = Some ox2 /\ get_world_transform ox2 = mmul i (get_world_transform ox)).
Proof.
  intros asort h0 l o0 w t i h1 h2 G HW HT A P.
  destruct (append_own_world _ _ _ _ _ A) as (_ & _ & AW).
  destruct (AW _ _ G) as (o1 & G1 & _ & W1). rewrite Nat.eqb_refl in W1.
  destruct (pin_one asort l h0 h1 h2 o0 o1 G G1 P) as (c & C & M & _).
  unfold get_world_transform in *. rewrite W1 in C.
  assert (E : c = i).
  { destruct HW as [_ HW], HT as [_ HT].
    assert (X : mmul c t = mid).
    { rewrite <- (mmul_mid_r (mmul c t)), <- HW, <- mmul_assoc, (mmul_assoc c t), C. reflexivity. }
    rewrite <- (mmul_mid_r c), <- HT, <- mmul_assoc, X. apply mmul_mid_l. }
  subst c. split.
  - destruct (M l o1 G1) as (o2 & G2 & E2). exists o2. split; [exact G2|]. intro T. rewrite E2, T, W1.
    cbn [power]. rewrite mmul_mid_r. exact C.
  - intros x ox N Gx T. destruct (AW _ _ Gx) as (ox1 & Gx1 & _ & Wx1).
    apply Nat.eqb_neq in N. rewrite N in Wx1.
    destruct (M x ox1 Gx1) as (ox2 & Gx2 & E2). exists ox2. split; [exact Gx2|]. rewrite E2, T, Wx1.
    cbn [power]. rewrite mmul_mid_r. reflexivity.
Qed.
Print Assumptions C130_pin_displaces_parts_refuted.

(** A union of two cubes is moved to x = 1 and interrupted; after the context the union is
    back at 0 and its cubes are at x = -1. *)
Example C130_union_falls_apart : forall asort, exists h h1 h2 o o2,
  run_prog asort [CSurface unit_cube Absorber; CSurface unit_cube Absorber; CCsg UNION 0%nat 1%nat] empty_heap = Ok h /\
  append_own asort 2%nat (shift 1 0 0) h = Ok h1 /\
  pin_exit asort [2]%nat (pin_enter h [2]%nat) h1 = Ok h2 /\
  times h1 2%nat 0%nat = 1%nat /\ times h1 2%nat 1%nat = 1%nat /\ times h1 2%nat 2%nat = 1%nat /\
  get h2 2%nat = Some o2 /\ get_position o2 = point 0 0 0 /\
  get h2 0%nat = Some o /\ get_position o = point (-1) 0 0.
Proof.
  intro asort. do 5 eexists. split; [go; reflexivity|]. split; [go; reflexivity|]. split.
  - go. reflexivity.
  - split; [reflexivity|]. split; [reflexivity|]. split; [reflexivity|]. split; [reflexivity|].
    split; [cbn; f_equal; ring|]. split; [reflexivity|]. cbn. f_equal; ring.
Qed.
