(** * SourceFacts: lemmas about the sources *)
From Coq Require Import Reals Lra Lia List Bool ZArith Permutation.
Import ListNotations.
From Verif Require Import XR Lin LinFacts SpecOptics OpsFacts World Tracer Sources SpecSources.
Open Scope R_scope.

(** ** Rows *)
Lemma assign_seq : forall {A} (put : A -> col -> col) f g n,
  assign put (map f (seq 0 n)) (map g (seq 0 n)) = map (fun i => put (f i) (g i)) (seq 0 n).
Proof.
  intros A put f g n. unfold assign. generalize (seq 0 n) as l.
  induction l as [|i l IH]; simpl; [reflexivity|rewrite IH; reflexivity].
Qed.
Lemma fill_map : forall {A} (put : A -> col -> col) x g (l : list nat), fill put x (map g l) = map (fun i => put x (g i)) l.
Proof. intros. unfold fill. rewrite map_map. reflexivity. Qed.
Lemma combine_map2 : forall {A B C} (f : C -> A) (g : C -> B) (l : list C),
  combine (map f l) (map g l) = map (fun i => (f i, g i)) l.
Proof. induction l as [|i l IH]; simpl; [reflexivity|rewrite IH; reflexivity]. Qed.
Lemma seq_shift_by : forall p n, seq p n = map (fun i => (p + i)%nat) (seq 0 n).
Proof.
  intros p n; revert p; induction n as [|n IH]; intros p; [reflexivity|].
  simpl. rewrite (IH (S p)), (IH 1%nat), map_map. f_equal; [lia|]. apply map_ext; intros; lia.
Qed.
Lemma random_seq : forall rnd p n, random_sample rnd p n = map (fun i => rnd (p + i)%nat) (seq 0 n).
Proof. intros. unfold random_sample. rewrite seq_shift_by, map_map. reflexivity. Qed.
Lemma map_seq_ext : forall {A} (f g : nat -> A) n, (forall i, (i < n)%nat -> f i = g i) ->
  map f (seq 0 n) = map g (seq 0 n).
Proof. intros. apply map_ext_in. intros i Hi. apply in_seq in Hi. apply H; lia. Qed.

Definition plain (wl int : R) (o d : v4) (i : nat) : col := Col (Ray o d) 0 int wl 1 i.

(** The column [i] each source generates, in its own coordinates *)
Definition line_y (s : R) (n i : nat) : R :=
  if Nat.ltb 1 n then - s / 2 + INR i * ((s / 2 - - s / 2) / INR (n - 1)) else 0.
Definition circle_a (n i : nat) : R := 0 + INR i * ((2 * PI - 0) / INR (n - 1)).
Definition cone_a (n i : nat) : R := 2 * PI * INR i / INR n.
Definition wedge_a (a : R) (n i : nat) : R := - a / 2 + INR i * ((a / 2 - - a / 2) / INR (n - 1)).

Lemma line_local : forall rnd s wl p n, fst (local_rays rnd (LineOfRays s) wl p n) =
  map (fun i => plain wl 100 (point 0 (line_y s n i) 0) (vector 1 0 0) i) (seq 0 n).
Proof.
  intros. unfold local_rays, new_rayset, linspace, line_y.
  destruct (Nat.ltb 1 n) eqn:L; cbn [fst].
  - rewrite assign_seq, !fill_map. reflexivity.
  - rewrite !fill_map. reflexivity.
Qed.
Lemma circle_local : forall rnd d wl p n, fst (local_rays rnd (CircleOfRays d) wl p n) =
  map (fun i => plain wl 100 (point 0 (d / 2 * sin (circle_a n i)) (d / 2 * cos (circle_a n i))) (vector 1 0 0) i) (seq 0 n).
Proof.
  intros. unfold local_rays, new_rayset, linspace. cbn [fst].
  rewrite !map_map, !assign_seq, !fill_map. reflexivity.
Qed.
Lemma cone_local : forall rnd a wl p n, fst (local_rays rnd (ConeOfRays a) wl p n) =
  map (fun i => plain wl 100 (point 0 0 0)
    (if Nat.ltb 1 n then vector (cos (radians a)) (sin (radians a) * sin (cone_a n i)) (sin (radians a) * cos (cone_a n i))
     else vector (cos (radians a)) 0 0) i) (seq 0 n).
Proof.
  intros. unfold local_rays, new_rayset. destruct (Nat.ltb 1 n) eqn:L; cbn [fst].
  - rewrite !map_map, !assign_seq, !fill_map. reflexivity.
  - rewrite !fill_map. reflexivity.
Qed.
Lemma wedge_local : forall rnd a wl p n, fst (local_rays rnd (WedgeOfRays a) wl p n) =
  map (fun i => plain wl 100 (point 0 0 0)
    (vector (cos (wedge_a (radians a) n i)) (sin (wedge_a (radians a) n i)) 0) i) (seq 0 n).
Proof.
  intros. unfold local_rays, new_rayset, linspace. cbn [fst].
  rewrite !map_map, !assign_seq, !fill_map. reflexivity.
Qed.
Definition lamp_theta (rnd : nat -> R) (m : R) (p i : nat) : R := acos (1 - rnd (p + i)%nat * (1 - cos m)).
Definition lamp_phi (rnd : nat -> R) (p n i : nat) : R := rnd (p + n + i)%nat * (2 * PI).
Lemma lamp_local : forall rnd w l a wl p n, fst (local_rays rnd (Lamp w l a) wl p n) =
  map (fun i => let t := lamp_theta rnd (radians a) p i in let f := lamp_phi rnd p n i in
    plain wl (100 * cos t) (point 0 (w * (rnd (p + 2 * n + i)%nat - 1 / 2)) (l * (rnd (p + 3 * n + i)%nat - 1 / 2)))
      (vector (cos t) (sin t * cos f) (sin t * sin f)) i) (seq 0 n).
Proof.
  intros. unfold local_rays, new_rayset, sphere_sample. cbn [fst]. rewrite !random_seq, !map_map, !combine_map2, !map_map.
  rewrite fill_map, !assign_seq. reflexivity.
Qed.
Lemma random_state : forall rnd s wl p n, snd (local_rays rnd s wl p n) =
  match s with Lamp _ _ _ => (p + 4 * n)%nat | _ => p end.
Proof. intros. destruct s; reflexivity. Qed.

(** ** Placing *)
Lemma place_some : forall m c, vdot (mapply m (direction (c_ray c))) (mapply m (direction (c_ray c))) <> 0 ->
  place_ray m c = Some (with_ray (Ray (mapply m (origin (c_ray c))) (hat (mapply m (direction (c_ray c))))) c).
Proof.
  intros m c NZ. unfold place_ray. cbn. destruct (vnormalize_hat _ NZ) as [E _]. rewrite E. reflexivity.
Qed.
Lemma place_mid : forall c, unit (direction (c_ray c)) -> place_ray mid c = Some c.
Proof.
  intros [[o d] g x wl n i] U. unfold place_ray, ray_map, with_ray, with_direction. cbn in *. rewrite !mapply_mid.
  rewrite vnormalize_unit; [reflexivity|exact U].
Qed.
Lemma place_none : forall m c, mapply m (direction (c_ray c)) = V4 0 0 0 0 -> place_ray m c = None.
Proof.
  intros m c Z. unfold place_ray. cbn. destruct (vnormalize_none (mapply m (direction (c_ray c)))) as [_ E].
  rewrite E; auto.
Qed.
Lemma generate_eq : forall rnd s wl m p n,
  fst (generate_rays rnd s wl m p n) = map (place_ray m) (fst (local_rays rnd s wl p n)).
Proof. intros. unfold generate_rays. destruct (local_rays rnd s wl p n). reflexivity. Qed.
Lemma emits_local : forall rnd s wl p n f,
  fst (local_rays rnd s wl p n) = map f (seq 0 n) ->
  (forall i, (i < n)%nat -> unit (direction (c_ray (f i)))) ->
  emits rnd s wl mid p n (map f (seq 0 n)).
Proof.
  intros. unfold emits. rewrite generate_eq, H, !map_map. apply map_seq_ext. intros i Hi. apply place_mid, H0, Hi.
Qed.

Lemma injective_nonzero : forall m i d, is_inverse m i -> vdot d d <> 0 -> vdot (mapply m d) (mapply m d) <> 0.
Proof.
  intros m i d I NZ E. apply vdot_self_zero in E. apply NZ.
  rewrite <- (inverse_apply_l m i d I), E. unfold mapply, vdot; simpl; ring.
Qed.
Lemma hat_map_hat : forall m d, vdot d d <> 0 -> vdot (mapply m d) (mapply m d) <> 0 ->
  hat (mapply m (hat d)) = hat (mapply m d).
Proof.
  intros m d NZ NZ'. unfold hat at 2. rewrite mapply_scale. unfold hat. set (v := mapply m d) in *.
  assert (P := vnorm_pos d NZ). assert (Q := vnorm_pos v NZ').
  assert (N : vnorm (vscale (/ vnorm d) v) = / vnorm d * vnorm v).
  { unfold vnorm at 1. rewrite vdot_scale_l, vdot_scale_r, <- vnorm_sq.
    replace (/ vnorm d * (/ vnorm d * (vnorm v * vnorm v))) with ((/ vnorm d * vnorm v) * (/ vnorm d * vnorm v)) by ring.
    apply sqrt_square. apply Rmult_le_pos; [apply Rlt_le, Rinv_0_lt_compat; auto|lra]. }
  rewrite N, vscale_vscale. f_equal. field. lra.
Qed.
Lemma emits_nonzero : forall rnd s wl p n rays, emits rnd s wl mid p n rays ->
  Forall2 (fun l c => vdot (direction (c_ray l)) (direction (c_ray l)) <> 0 /\
     c = with_ray (Ray (origin (c_ray l)) (hat (direction (c_ray l)))) l) (fst (local_rays rnd s wl p n)) rays.
Proof.
  intros rnd s wl p n rays E. unfold emits in E. rewrite generate_eq in E.
  revert rays E. induction (fst (local_rays rnd s wl p n)) as [|l ls IH]; intros [|c rays] E; try discriminate; constructor.
  - simpl in E. injection E as E _. unfold place_ray in E. cbn in E. rewrite !mapply_mid in E.
    destruct (Req_EM_T (vdot (direction (c_ray l)) (direction (c_ray l))) 0) as [Z|NZ].
    + apply vdot_self_zero in Z. destruct (vnormalize_none (direction (c_ray l))) as [_ N]. rewrite N in E by auto. discriminate.
    + split; auto. destruct (vnormalize_hat _ NZ) as [N _]. rewrite N in E. injection E as E. subst. unfold with_direction, with_ray, ray_map; cbn. rewrite mapply_mid. reflexivity.
  - apply IH. simpl in E. injection E as _ E. exact E.
Qed.
Lemma placed_rays : forall rnd s wl m i p n rays, is_inverse m i -> emits rnd s wl mid p n rays ->
  exists rays', emits rnd s wl m p n rays' /\ Forall2 (carried m) rays rays'.
Proof.
  intros rnd s wl m i p n rays I E. apply emits_nonzero in E. unfold emits. rewrite generate_eq.
  induction E as [|l c ls cs [NZ E] H IH].
  - exists []. split; [reflexivity|constructor].
  - destruct IH as [rs [E1 F]]. subst c.
    assert (NZ' := injective_nonzero _ _ _ I NZ).
    exists (with_ray (Ray (mapply m (origin (c_ray l))) (hat (mapply m (direction (c_ray l))))) l :: rs). split.
    + simpl. rewrite E1, place_some by exact NZ'. reflexivity.
    + constructor; [|exact F]. unfold carried. cbn. rewrite hat_map_hat by assumption.
      repeat split; auto. apply vnormalize_hat. exact NZ'.
Qed.

(** ** Trigonometry *)
Lemma sc1 : forall x, sin x * sin x + cos x * cos x = 1.
Proof. intros. pose proof (sin2_cos2 x). unfold Rsqr in H. exact H. Qed.
Lemma cos_one : forall x, - (2 * PI) < x < 2 * PI -> cos x = 1 -> x = 0.
Proof.
  intros x [L U] C.
  assert (S : sin (x / 2) = 0).
  { replace x with (2 * (x / 2)) in C by field. rewrite cos_2a_sin in C. apply Rsqr_0_uniq. unfold Rsqr. lra. }
  destruct (Rtotal_order x 0) as [N|[Z|P]]; auto; exfalso.
  - assert (0 < sin (- (x / 2))) by (apply sin_gt_0; lra). rewrite sin_neg in H. lra.
  - assert (0 < sin (x / 2)) by (apply sin_gt_0; lra). lra.
Qed.
Lemma sin_cos_inj : forall a b, - (2 * PI) < a - b < 2 * PI -> sin a = sin b -> cos a = cos b -> a = b.
Proof.
  intros a b R S C. apply Rminus_diag_uniq. apply cos_one; auto. rewrite cos_minus, S, C. pose proof (sc1 b). lra.
Qed.
Lemma NoDup_map_seq : forall {A} (f : nat -> A) n,
  (forall i j, (i < n)%nat -> (j < n)%nat -> f i = f j -> i = j) -> NoDup (map f (seq 0 n)).
Proof.
  intros A f n H. assert (G : forall l, NoDup l -> (forall i, In i l -> (i < n)%nat) -> NoDup (map f l)).
  { induction l as [|x l IH]; intros N B; simpl; [constructor|]. inversion N; subst. constructor.
    - intros I. apply in_map_iff in I. destruct I as [y [E Y]].
      assert (x = y) by (apply H; [apply B; left; auto|apply B; right; auto|auto]). subst; contradiction.
    - apply IH; auto. intros; apply B; right; auto. }
  apply G; [apply seq_NoDup|]. intros i Hi. apply in_seq in Hi. lia.
Qed.
