(** * CrossingExamples: a ray that enters a difference of a union *)
From Coq Require Import Reals List Bool ZArith Lra Lia Psatz.
Import ListNotations.
From Verif Require Import XR XRFacts Arr Csg SpecCsg CsgProps Lin LinFacts Prim Surf SpecGeom SpecTree TreeFacts SurfFacts UnionFacts TreeExamples
  World Tracer SpecTrace SpecCrossing Crossing CrossingProps.
Open Scope R_scope.

(** The hits of a surface are the ends of the interval it occupies *)
Lemma chord_is : forall f r a b, surf_ok f -> world_ray r -> good_local (s_prim f) (ray_map (s_obj f) r) -> a < b ->
  (forall t, placed f (ray_at r t) <-> a <= t <= b) -> surf_hits f r = [Fin a; Fin b].
Proof.
  intros f r a b OK W G AB P. destruct (surf_chord f r OK W G) as [(t0 & t1 & E & L & S)|(_ & S)].
  - rewrite E. assert (A : t0 <= a <= t1) by (apply S, P; lra). assert (B : t0 <= b <= t1) by (apply S, P; lra).
    assert (A' : a <= t0 <= b) by (apply P, S; lra). assert (B' : a <= t1 <= b) by (apply P, S; lra). do 2 f_equal; [|f_equal]; f_equal; lra.
  - assert (a = b); [|lra]. apply S; apply P; lra.
Qed.
Lemma sqrt_between : forall x a b, 0 <= a -> 0 <= b -> 0 <= x -> a * a < x < b * b -> a < sqrt x < b.
Proof. intros x a b A B X H. pose proof (sqrt_sqrt x X). pose proof (sqrt_pos x). split; nra. Qed.
Lemma square_range : forall x k, 0 <= k -> (x * x <= k <-> - sqrt k <= x <= sqrt k).
Proof. intros x k K. pose proof (sqrt_sqrt k K). pose proof (sqrt_pos k). split; intro; [split|]; nra. Qed.

Lemma placed_here : forall i p x y z, placed (at_origin i p) (point x y z) <-> solid p (point x y z).
Proof.
  intros i p x y z. unfold placed. cbn [at_origin s_prim s_world]. split.
  - intros (q & _ & S & E). rewrite mapply_mid in E. subst q. exact S.
  - intro S. exists (point x y z). rewrite mapply_mid. auto.
Qed.
Lemma long_at : forall t, ray_at long_ray t = point (t - 5) (1 / 10) (1 / 5).
Proof. intro t. unfold ray_at, long_ray, point, vector; cbn [origin direction vx vy vz vw]. f_equal; ring. Qed.
Definition k1 : R := sqrt (95 / 100).
Definition k2 : R := sqrt (24 / 100).
Lemma k_values : 97 / 100 < k1 < 98 / 100 /\ 48 / 100 < k2 < 49 / 100.
Proof. split; apply sqrt_between; lra. Qed.
Lemma long_ball : forall t, placed ball (ray_at long_ray t) <-> 5 - k1 <= t <= 5 + k1.
Proof.
  intro t. rewrite long_at. unfold ball. rewrite placed_here. unfold point; cbn [solid vx vy vz].
  pose proof (square_range (t - 5) (95 / 100) ltac:(lra)) as S. fold k1 in S. split; intro H.
  - assert (X : (t - 5) * (t - 5) <= 95 / 100) by lra. apply S in X. lra.
  - assert (X : - k1 <= t - 5 <= k1) by lra. apply S in X. lra.
Qed.
Lemma long_block : forall t, placed block (ray_at long_ray t) <-> 5 <= t <= 7.
Proof.
  intro t. rewrite long_at. unfold block. rewrite placed_here. unfold point, between; cbn [solid vx vy vz]. unfold between. rewrite Rmin_left, Rmax_right by lra. split; lra.
Qed.
Lemma long_rod : forall t, placed rod (ray_at long_ray t) <-> 5 - k2 <= t <= 5 + k2.
Proof.
  intro t. rewrite long_at. unfold rod. rewrite placed_here. unfold point; cbn [solid vx vy vz].
  pose proof (square_range (t - 5) (24 / 100) ltac:(lra)) as S. fold k2 in S. split; intro H.
  - assert (X : (t - 5) * (t - 5) <= 24 / 100) by lra. apply S in X. lra.
  - assert (X : - k2 <= t - 5 <= k2) by lra. apply S in X. lra.
Qed.
Lemma long_hits : surf_hits ball long_ray = [Fin (5 - k1); Fin (5 + k1)] /\ surf_hits block long_ray = [Fin 5; Fin 7] /\ surf_hits rod long_ray = [Fin (5 - k2); Fin (5 + k2)].
Proof.
  pose proof k_values. destruct (part_tree_ok (fun _ => [])) as ((B & K) & R). destruct (long_ray_good (fun _ => [])) as (_ & (_ & GB & GK) & GR).
  cbn [leaf_of tree_ok good_ray] in *.
  split; [|split]; apply chord_is; auto using long_ray_world, long_ball, long_block, long_rod; lra.
Qed.
Lemma part_visible : forall asort, argsort_ok asort -> visible long_ray (part asort).
Proof.
  intros asort AS. split; [|split; [apply part_tree_ok|split; [apply part_boxes_current; auto|split; [apply part_fits|apply long_ray_good]]]].
  right. intros f [<-|[<-|[<-|[]]]]; reflexivity.
Qed.
Lemma count_six : forall a b c d e f t, a <> b -> a <> c -> a <> d -> a <> e -> a <> f -> b <> c -> b <> d -> b <> e -> b <> f -> c <> d -> c <> e -> c <> f -> d <> e -> d <> f -> e <> f ->
  (count_occ xr_eq_dec [Fin a; Fin b; Fin c; Fin d; Fin e; Fin f] (Fin t) <= 1)%nat.
Proof.
  intros. apply (proj1 (NoDup_count_occ xr_eq_dec _)). repeat constructor; simpl; intuition congruence.
Qed.
Lemma part_case : forall asort, argsort_ok asort -> world_ray long_ray /\ (forall s, In s [part asort] -> visible long_ray s) /\ 0 < 5 - k1 /\ separate [part asort] long_ray 10 /\ undisturbed (part asort) long_ray (5 - k1) /\ meets (part asort) long_ray (5 - k1) /\ In ball (surface_ids (part asort)) /\ In (Fin (5 - k1)) (surf_hits ball long_ray).
Proof.
  intros asort AS. pose proof k_values as KV. destruct long_hits as (HB & HK & HR).
  assert (IN : forall t, inside (part asort) (ray_at long_ray t) <-> ((5 - k1 <= t <= 5 + k1 \/ 5 <= t <= 7) /\ ~ (5 - k2 <= t <= 5 + k2))).
  { intro t. cbn [part blob leaf_of inside]. rewrite long_ball, long_block, long_rod. tauto. }
  split; [apply long_ray_world|]. split; [intros s [<-|[]]; apply part_visible; auto|]. split; [lra|]. split; [|split; [|split; [|split]]].
  - intros t _. unfold part, blob, leaf_of, edges. cbn [flat_map surface_ids app is_plane s_prim ball block rod at_origin]. fold ball block rod. rewrite HB, HK, HR. cbn [app].
    apply count_six; lra.
  - unfold undisturbed. cbn [sheet part]. right. exists []. intros t T _. fold (part asort). rewrite IN. lra.
  - unfold meets. cbn [sheet part]. right. exists (1 / 10). split; [lra|]. split; intros t T; fold (part asort); rewrite IN; lra.
  - left. reflexivity.
  - rewrite HB. left. reflexivity.
Qed.
