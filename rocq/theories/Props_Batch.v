(** * Props_Batch: rays traced together, the RaySet array, the 2-D helpers *)
From Coq Require Import Reals List Bool ZArith Arith Lra Lia.
Import ListNotations.
From Verif Require Import XR XRFacts Arr Lin Ops Prim Csg CsgProps Surf World Tracer Sources Batch BatchFacts BatchFacts2 RaySet SpecRaySet RaySetFacts RaySetProps RenderExamples.
Open Scope R_scope.

(** C13: intersecting n rays together gives n columns, and column j is what the ray j gives
    alone, for hits and surface ids, for every shape *)
Theorem C13_every_ray_as_if_alone : forall asort, argsort_ok asort -> forall s n rays j, (j < n)%nat ->
  let together := batch_intersect asort s n rays in
  let alone := batch_intersect asort s 1 (fun _ => rays j) in
  width (fst together) = n /\ width (snd together) = n /\
  column (fst together) j = column (fst alone) 0 /\
  column (snd together) j = column (snd alone) 0.
Proof.
  intros asort AS s n rays j J together alone. destruct (batch_width asort s n rays) as [W1 W2].
  destruct (batch_column asort AS s n rays j J) as [A B].
  destruct (batch_column asort AS s 1 (fun _ => rays j) 0 Nat.lt_0_1) as [A' B'].
  unfold together, alone. split; [exact W1|]. split; [exact W2|]. split; congruence.
Qed.
Print Assumptions C13_every_ray_as_if_alone.

(** the arrays of the code and the one-ray model of all the other theorems agree: the
    primitives on their own, the CSG trees, and the propagate step of the ray tracer *)
Theorem C13_primitives_ray_by_ray : forall p n rays j, (j < n)%nat ->
  column (batch_prim p n rays) j = [fst (prim_hits p (rays j)); snd (prim_hits p (rays j))].
Proof. exact prim_column. Qed.
Print Assumptions C13_primitives_ray_by_ray.
Theorem C13_shapes_ray_by_ray : forall asort, argsort_ok asort -> forall s n rays j, (j < n)%nat ->
  column (fst (batch_intersect asort s n rays)) j = fst (shape_intersect asort s (rays j)) /\
  column (snd (batch_intersect asort s n rays)) j = snd (shape_intersect asort s (rays j)).
Proof. exact batch_column. Qed.
Print Assumptions C13_shapes_ray_by_ray.
Theorem C13_propagate_ray_by_ray : forall asort, argsort_ok asort -> forall comps n rays j, (j < n)%nat ->
  forall c, c_ray c = rays j ->
  (fst (batch_propagate asort comps n rays) j, snd (batch_propagate asort comps n rays) j) =
  propagate asort comps c.
Proof. exact propagate_column. Qed.
Print Assumptions C13_propagate_ray_by_ray.
Example C13_hypotheses : argsort_ok (argsort_stable xsle PInf) /\ (2 < 3)%nat.
Proof. split; [apply argsort_ok_stable|lia]. Qed.
(** a concrete batch of three rays; the middle one misses *)
Definition three_rays : rayset := fun j => Ray (point 0 (if (j =? 1)%nat then 9 else 0) 0) (vector 1 0 0).
Example C13_three_rays : forall j, (j < 3)%nat ->
  column (batch_prim (PSphere 1) 3 three_rays) j =
  if (j =? 1)%nat then [PInf; PInf] else [Fin 1; Fin (-1)].
Proof.
  intros j J. rewrite prim_column by exact J. unfold three_rays. cbn [prim_hits].
  unfold sphere_hits, point, vector. cbn [origin direction vx vy vz].
  destruct (Nat.eqb_spec j 1); cbn [vx vy vz].
  - match goal with |- context [rleb 0 ?d] => replace (rleb 0 d) with false end; [reflexivity|].
    symmetry. apply rleb_false. lra.
  - match goal with |- context [rleb 0 ?d] => replace d with 4 by ring; replace (rleb 0 4) with true end.
    2:{ symmetry. apply rleb_true. lra. }
    replace (Rmax 0 4) with (2 * 2) by (unfold Rmax; destruct (Rle_dec 0 4); lra).
    rewrite sqrt_square by lra. rewrite !xdiv_fin by lra. unfold col2. cbn [fst snd].
    f_equal; [f_equal; field|]. f_equal. f_equal. field.
Qed.

(** C68: a new set of n rays *)
Theorem C68_new_set : forall n, exists rs, new_set n = Some rs /\ is_rayset rs /\ width rs = n /\
  forall j, (j < n)%nat ->
    (forall axis, (axis < 4)%nat -> get rs (Coord 0 axis) j = if (axis =? 3)%nat then 1 else 0) /\
    (forall axis, (axis < 4)%nat -> get rs (Coord 1 axis) j = 0) /\
    get rs Generation j = 0 /\ get rs Intensity j = 100 /\ get rs Wavelength j = 633 / 1000 /\
    get rs Index j = 1 /\ get rs Id j = INR j.
Proof.
  intro n. destruct (new_set_fields n) as (rs & S & L & W & G). exists rs.
  split; [exact S|]. split; [exact L|]. split; [exact W|]. intros j J. destruct (G j J) as (A & B).
  split; [|split; [|exact B]]; intros axis H; rewrite A by lia; [|reflexivity].
  destruct axis as [|[|[|[|a]]]]; try lia; reflexivity.
Qed.
Print Assumptions C68_new_set.
(** C68: assigning a number, or one number per ray, to a field always works; it changes that
    field of every ray to the given value and no other field of any ray *)
Theorem C68_setting_one_field : forall f rs, is_rayset rs -> field_ok f ->
  (forall x, exists rs', set f (Scalar x) rs = Some rs' /\ is_rayset rs' /\ width rs' = width rs /\
     forall g j, field_ok g -> (j < width rs)%nat ->
       (g = f -> get rs' g j = x) /\ (g <> f -> get rs' g j = get rs g j)) /\
  (forall xs, exists rs', set f (Values (width rs) xs) rs = Some rs' /\ is_rayset rs' /\ width rs' = width rs /\
     forall g j, field_ok g -> (j < width rs)%nat ->
       (g = f -> get rs' g j = xs j) /\ (g <> f -> get rs' g j = get rs g j)).
Proof.
  intros f rs L F.
  assert (G : forall v r, broadcast (width rs) v = Some r ->
    exists rs', set f v rs = Some rs' /\ is_rayset rs' /\ width rs' = width rs /\
     forall g j, field_ok g -> (j < width rs)%nat ->
       (g = f -> get rs' g j = r j) /\ (g <> f -> get rs' g j = get rs g j)).
  { intros v r B. destruct (set_some f v rs) as [rs' S]; [congruence|]. exists rs'. split; [exact S|].
    destruct (set_frow f v rs rs' L F S) as (r' & _ & W & L' & _). split; [exact L'|]. split; [exact W|].
    intros g j Hg Hj. destruct (set_get f v rs rs' g j L F Hg S Hj) as [X Y]. split; [|exact Y].
    intro E. destruct (X E) as (r'' & B'' & ->). congruence. }
  split; intros; [apply (G (Scalar x) (fun _ => x)); reflexivity|].
  apply (G (Values (width rs) xs) xs). cbn. rewrite Nat.eqb_refl. reflexivity.
Qed.
Print Assumptions C68_setting_one_field.
(** an array of any other length is refused, unless it has one element *)
Theorem C68_wrong_length_is_refused : forall f len xs rs,
  set f (Values len xs) rs = None <-> len <> width rs /\ len <> 1%nat.
Proof.
  intros. unfold set, broadcast. destruct (Nat.eqb_spec len (width rs)); [split; [discriminate|tauto]|].
  destruct (Nat.eqb_spec len 1); [split; [discriminate|tauto]|]. tauto.
Qed.
Print Assumptions C68_wrong_length_is_refused.
Example C68_hypotheses : exists rs, new_set 5 = Some rs /\ is_rayset rs /\ field_ok (Coord 1 2) /\
  set Wavelength (Values 4 INR) rs = None.
Proof.
  destruct (new_set_fields 5) as (rs & S & L & W & _). exists rs. split; [exact S|]. split; [exact L|].
  split; [cbn; lia|]. apply C68_wrong_length_is_refused. rewrite W. lia.
Qed.

(** C81: the array operations of the tracer and the sources are what they should be on the
    rays the array holds: a new set, writing a row, stacking the sources' sets and numbering
    them, keeping the rays of a mask, and replacing the rays of a mask *)
Theorem C81_new_set_holds_default_rays : forall n, exists rs, new_set n = Some rs /\ holds rs (new_rayset n).
Proof. exact holds_new. Qed.
Print Assumptions C81_new_set_holds_default_rays.
Theorem C81_sources_write_rows : forall rs cs, holds rs cs ->
  forall f put, In (f, put) [(Coord 0 1, set_pos_y); (Coord 0 2, set_pos_z); (Coord 1 0, set_dir_x);
                             (Coord 1 1, set_dir_y); (Coord 1 2, set_dir_z);
                             (Wavelength, set_wavelength); (Intensity, set_intensity); (Index, with_idx)] ->
  (forall x, exists rs', set f (Scalar x) rs = Some rs' /\ holds rs' (map (put x) cs)) /\
  (forall xs, length xs = length cs ->
     exists rs', set f (Values (length xs) (fun j => nth j xs 0)) rs = Some rs' /\
       holds rs' (map (fun q => put (fst q) (snd q)) (combine xs cs))).
Proof.
  intros rs cs H f put I.
  assert (W : writes f put /\ field_ok f).
  { destruct setters_write as (A & B & C & D & E & F & G & K).
    cbn [In] in I. repeat (destruct I as [I|I]; [injection I as <- <-; split; [assumption|cbn; lia]|]).
    destruct I. }
  destruct W as [W F]. exact (holds_set f put rs cs F W H).
Qed.
Print Assumptions C81_sources_write_rows.
Theorem C81_joined_sets : forall sets css, Forall2 holds sets css -> sets <> [] ->
  exists rs, join_sets sets = Some rs /\ holds rs (renumber 0 (concat css)) /\
    width rs = length (concat css) /\ forall j, (j < width rs)%nat -> get rs Id j = INR j.
Proof.
  intros sets css H N. destruct (holds_join sets css H N) as (rs & J & K). exists rs. split; [exact J|].
  split; [exact K|]. destruct K as (L & W & G). rewrite renumber_len in W. split; [exact W|].
  intros j Hj. destruct (nth_error (renumber 0 (concat css)) j) as [c|] eqn:E.
  2:{ apply nth_error_None in E. rewrite renumber_len in E. lia. }
  rewrite (G j c Id E Logic.I). destruct (nth_error_renumber _ _ _ _ E) as (c0 & _ & ->). reflexivity.
Qed.
Print Assumptions C81_joined_sets.
Theorem C81_masked_rays : forall rs cs mask p, holds rs cs ->
  (forall j c, nth_error cs j = Some c -> mask j = p c) ->
  holds (mask_cols mask rs) (filter p cs) /\
  forall g sub, holds sub (map g (filter p cs)) ->
    holds (put mask sub rs) (map (fun c => if p c then g c else c) cs).
Proof. intros rs cs mask p H M. split; [exact (holds_mask rs cs mask p H M)|]. intros g sub S. exact (holds_put rs sub cs mask p g H M S). Qed.
Print Assumptions C81_masked_rays.
Example C81_hypotheses : exists a b, Forall2 holds [a; b] [new_rayset 2; new_rayset 3] /\
  exists rs, join_sets [a; b] = Some rs /\ width rs = 5%nat.
Proof.
  destruct (holds_new 2) as (a & _ & A). destruct (holds_new 3) as (b & _ & B). exists a, b.
  assert (H : Forall2 holds [a; b] [new_rayset 2; new_rayset 3]) by auto. split; [exact H|].
  destruct (C81_joined_sets _ _ H ltac:(discriminate)) as (rs & J & _ & W & _). exists rs. split; [exact J|exact W].
Qed.

(** C67: the closed disk and the closed rectangle; from_diameter halves *)
Theorem C67_disk : forall d x y, 0 <= d ->
  (disk_contains (disk_from_diameter d) x y = true <-> x * x + y * y <= (d / 2) * (d / 2)).
Proof. intros d x y D. rewrite disk_spec. unfold disk_from_diameter. split; [tauto|]. intro H. split; [lra|exact H]. Qed.
Print Assumptions C67_disk.
Theorem C67_disk_radius : forall r x y,
  disk_contains r x y = true <-> 0 <= r /\ x * x + y * y <= r * r.
Proof. exact disk_spec. Qed.
Print Assumptions C67_disk_radius.
Theorem C67_rectangle : forall xl yl x y, rectangle_contains xl yl x y = true <->
  - (xl / 2) <= x <= xl / 2 /\ - (yl / 2) <= y <= yl / 2.
Proof. exact rectangle_spec. Qed.
Print Assumptions C67_rectangle.
(** C67: overlap keeps, in order, the elements of each array that lie between elements of
    both arrays; it raises for an empty array *)
Theorem C67_overlap : forall a b, a <> [] -> b <> [] ->
  exists p, (forall x, p x = true <->
               (exists y, In y a /\ y <= x) /\ (exists y, In y b /\ y <= x) /\
               (exists y, In y a /\ x <= y) /\ (exists y, In y b /\ x <= y)) /\
            overlap a b = Some (filter p a, filter p b).
Proof. exact overlap_spec. Qed.
Print Assumptions C67_overlap.
Theorem C67_overlap_of_nothing_raises : forall a, overlap [] a = None /\ overlap a [] = None.
Proof. intros [|x a]; split; reflexivity. Qed.
Print Assumptions C67_overlap_of_nothing_raises.
Example C67_hypotheses : disk_contains (disk_from_diameter 10) 3 4 = true /\ rectangle_contains 2 4 1 (-2) = true /\
  [1; 2] <> [] /\ [2; 3] <> @nil R.
Proof.
  split; [apply C67_disk; lra|]. split; [apply C67_rectangle; lra|]. split; discriminate.
Qed.
