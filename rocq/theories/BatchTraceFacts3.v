(** * BatchTraceFacts3: the array tracer and the array sources, run by run *)
From Coq Require Import Reals List Bool ZArith Arith Lia Lra.
Import ListNotations.
From Verif Require Import XR XRFacts Arr Lin LinFacts Ops Prim Csg CsgProps Surf World Tracer TraceFacts Sources Batch BatchFacts BatchFacts2
  BatchOps BatchOpsFacts RaySet SpecRaySet RaySetFacts RaySetProps BatchTracer BatchTraceFacts BatchTraceFacts2 BatchSources SpecArray.
Open Scope R_scope.

Lemma rays_of_holds : forall rs cs, holds rs cs -> forall j c, nth_error cs j = Some c -> c_ray c = rays_of rs j.
Proof.
  intros rs cs (_ & _ & H) j c E. unfold rays_of.
  assert (F : forall k a, (k < 2)%nat -> (a < 4)%nat -> ray_item rs k a j = field_of c (Coord k a)).
  { intros k a K A. apply (H j c (Coord k a) E). cbn. auto. }
  rewrite !F by lia. cbn [field_of v4_axis]. destruct c as [[[] []] g i w x d]. reflexivity.
Qed.

(** the two tracers are in the same situation *)
Definition agree (b : btracer) (t : tracer) : Prop :=
  b_frame b = map row_numbers (f_rows (t_frame t)) /\ b_state b = t_state t /\ b_gen b = t_gen t /\
  b_complete b = t_complete t /\ b_sources b = t_sources t /\ b_comps b = t_comps t /\ b_n b = t_n t /\
  b_limit b = t_limit t /\ b_lut b = t_lut t /\
  (t_state t = PROPAGATE \/ t_state t = INTERACT -> holds (b_rays b) (t_rays t)) /\
  (t_state t = INTERACT -> length (t_hits t) = length (t_rays t) /\
     forall j q, nth_error (t_hits t) j = Some q -> q = (fst (b_hits b) j, snd (b_hits b) j)).

Section Run.
  Variable asort : list xr -> list nat.
  Hypothesis AS : argsort_ok asort.
  Variable h : heap.
  Variable barrays : loc -> nat -> arr R.
  Variable rays : loc -> nat -> list col.

  Definition same (r : bres) (q : tres) : Prop :=
    match q with
    | TOk t => exists b, r = BOk b /\ agree b t
    | TRaise e _ => r = BErr e
    | TNan => True
    | TFuel => r = BFuel
    end.

  Lemma initialize_same : forall b t, agree b t ->
    (forall s, In s (t_sources t) -> holds (barrays s (t_n t)) (rays s (t_n t))) ->
    same (b_initialize barrays b) (st_initialize rays t).
  Proof.
    intros b t (F & S & G & C & So & Co & N & Li & Lu & R & Hi) H.
    unfold b_initialize, st_initialize. rewrite So, N. cbn [reset set_gen set_state set_frame set_complete t_sources t_n].
    set (ss := t_sources t) in *. destruct ss as [|s0 ss'] eqn:E; [reflexivity|]. rewrite <- E in *.
    destruct (holds_join (map (fun s => barrays s (t_n t)) ss) (map (fun s => rays s (t_n t)) ss)) as (rs & J & K).
    - clear E So. induction ss as [|s ss IH]; cbn [map]; constructor; [apply H; cbn; auto|]. apply IH. intros; apply H; cbn; auto.
    - rewrite E. discriminate.
    - rewrite J. rewrite E. cbn [same]. eexists. split; [reflexivity|].
      unfold agree, b_with. cbn. repeat match goal with |- _ /\ _ => split end; auto; try discriminate.
      intros _. rewrite E in K. cbn [map concat] in K. exact K.
  Qed.

  Lemma propagate_same : forall b t, agree b t -> t_state t = PROPAGATE ->
    same (b_propagate asort h b) (st_propagate asort h t).
  Proof.
    intros b t (F & S & G & C & So & Co & N & Li & Lu & R & Hi) P.
    unfold b_propagate, st_propagate. rewrite Co. destruct (collect (map (shape_of h) (t_comps t))) as [comps|]; [|reflexivity].
    specialize (R (or_introl P)). cbn [same]. eexists. split; [reflexivity|].
    unfold agree, b_with. cbn [b_frame b_state b_gen b_complete b_sources b_comps b_n b_limit b_lut b_rays b_hits
      set_state set_hits t_frame t_state t_gen t_complete t_sources t_comps t_n t_limit t_lut t_rays t_hits].
    repeat match goal with |- _ /\ _ => split end; auto.
    intros _. rewrite map_length. split; [reflexivity|]. intros j q E. rewrite nth_error_map in E.
    destruct (nth_error (t_rays t) j) as [c|] eqn:Ec; [|discriminate]. injection E as <-.
    symmetry. apply propagate_column; auto.
    - destruct R as (_ & W & _). rewrite W. apply nth_error_Some. congruence.
    - apply (rays_of_holds _ _ R j c Ec).
  Qed.

  Lemma interact_same : forall b t, agree b t -> t_state t = INTERACT ->
    same (b_interact h b) (st_interact h t).
  Proof.
    intros b t (F & S & G & C & So & Co & N & Li & Lu & R & Hi) P.
    unfold b_interact, st_interact. rewrite Lu, Li, G. destruct (collect (map (entry_of h) (t_lut t))) as [lut|]; [|reflexivity].
    specialize (R (or_intror P)). destruct (Hi P) as [L HH].
    pose proof (interact_shows (fst (b_hits b)) (snd (b_hits b)) lut (t_limit t) (t_gen t) (b_rays b) (t_rays t) (t_hits t) R L HH) as I.
    destruct (interact lut (t_limit t) (t_gen t) (t_rays t) (t_hits t)) as [|ws rs' gen fin| |].
    - rewrite I. cbn [same]. eexists. split; [reflexivity|]. unfold agree, b_with. cbn.
      repeat match goal with |- _ /\ _ => split end; auto; intros [X|X] || intros X; discriminate.
    - destruct I as (rs & -> & HR). cbn [same]. eexists. split; [reflexivity|]. unfold agree, b_with. cbn.
      repeat match goal with |- _ /\ _ => split end; auto.
      + rewrite F, map_app. reflexivity.
      + destruct fin; intro X; discriminate.
    - rewrite I. reflexivity.
    - exact Logic.I.
  Qed.

  Lemma finish_same : forall b t, agree b t -> same (b_finish b) (st_finish t).
  Proof.
    intros b t (F & S & G & C & So & Co & N & Li & Lu & R & Hi).
    cbn [same b_finish st_finish]. eexists. split; [reflexivity|]. unfold agree, b_with. cbn.
    repeat match goal with |- _ /\ _ => split end; auto; intros [X|X] || intros X; discriminate.
  Qed.

  Definition fixed (t t' : tracer) : Prop := t_sources t' = t_sources t /\ t_n t' = t_n t.

  Lemma run_same : forall fuel b t, agree b t ->
    (forall s, In s (t_sources t) -> holds (barrays s (t_n t)) (rays s (t_n t))) ->
    same (b_run asort h barrays fuel b) (run_states asort h rays fuel t).
  Proof.
    induction fuel as [|fuel IH]; intros b t A H.
    - pose proof A as (_ & S & _). cbn [b_run run_states]. rewrite S. destruct (t_state t) eqn:E; try reflexivity.
      exists b. auto.
    - pose proof A as (_ & S & _). cbn [b_run run_states]. rewrite S.
      assert (K : forall r q, same r q -> (forall t', q = TOk t' -> fixed t t') ->
        same (bbind r (b_run asort h barrays fuel)) (tbind q (run_states asort h rays fuel))).
      { intros r q Q Z. destruct q as [t'|e t'| |]; cbn [same tbind] in *.
        - destruct Q as (b' & -> & A'). cbn [bbind]. apply IH; auto. destruct (Z t' eq_refl) as [-> ->]. exact H.
        - rewrite Q. reflexivity.
        - exact Logic.I.
        - rewrite Q. reflexivity. }
      destruct (t_state t) eqn:E.
      + exists b. auto.
      + apply K; [apply initialize_same; auto|]. intros t' T. unfold st_initialize in T.
        destruct (t_sources (reset t)); [discriminate|]. injection T as <-. split; reflexivity.
      + apply K; [apply propagate_same; auto|]. intros t' T. unfold st_propagate in T.
        destruct (collect _); [|discriminate]. injection T as <-. split; reflexivity.
      + apply K; [apply interact_same; auto|]. intros t' T. unfold st_interact in T.
        destruct (collect _); [|discriminate]. destruct (interact _ _ _ _ _); try discriminate; injection T as <-; split; reflexivity.
      + apply K; [apply finish_same; auto|]. intros t' T. unfold st_finish in T. injection T as <-. split; reflexivity.
  Qed.

  Lemma trace_same : forall fuel ss cs n limit b t,
    new_btracer h ss cs n limit = Some b -> new_tracer h ss cs n limit = Some t ->
    (forall s, In s ss -> holds (barrays s n) (rays s n)) ->
    same (b_trace asort h barrays fuel b) (trace asort h rays fuel t).
  Proof.
    intros fuel ss cs n limit b t B T H. unfold new_btracer, new_tracer in *.
    destruct (collect (map (lut_of h) cs)) as [luts|]; [|discriminate]. injection B as <-. injection T as <-.
    unfold b_trace, trace. apply run_same; [|exact H].
    unfold agree, b_with. cbn. repeat match goal with |- _ /\ _ => split end; auto; intros [X|X] || intros X; discriminate.
  Qed.
End Run.

(** *** Sources *)
Lemma write_fill : forall f put x o cs, field_ok f -> writes f put ->
  (exists rs, o = Some rs /\ holds rs cs) ->
  exists rs, write f (Scalar x) o = Some rs /\ holds rs (fill put x cs).
Proof.
  intros f put x o cs F W (rs & -> & H). destruct (proj1 (holds_set f put rs cs F W H) x) as (rs' & S & H').
  exists rs'. split; auto.
Qed.
Lemma write_assign : forall f put xs o cs, field_ok f -> writes f put -> length xs = length cs ->
  (exists rs, o = Some rs /\ holds rs cs) ->
  exists rs, write f (values xs) o = Some rs /\ holds rs (assign put xs cs).
Proof.
  intros f put xs o cs F W L (rs & -> & H). destruct (proj2 (holds_set f put rs cs F W H) xs L) as (rs' & S & H').
  exists rs'. split; auto.
Qed.
Lemma assign_length : forall A (put : A -> col -> col) xs cs, length xs = length cs -> length (assign put xs cs) = length cs.
Proof. intros. unfold assign. rewrite map_length, combine_length. lia. Qed.
Lemma fill_length : forall A (put : A -> col -> col) x cs, length (fill put x cs) = length cs.
Proof. intros. apply map_length. Qed.
Lemma new_rayset_length : forall n, length (new_rayset n) = n.
Proof. intros. unfold new_rayset. rewrite map_length, seq_length. reflexivity. Qed.
Lemma linspace_length : forall a b n, length (linspace a b n) = n.
Proof. intros. unfold linspace. rewrite map_length, seq_length. reflexivity. Qed.

Ltac len := unfold sphere_sample, random_sample; cbn [fst snd]; rewrite ?fill_length, ?map_length, ?combine_length, ?map_length, ?linspace_length, ?seq_length, ?new_rayset_length;
  repeat (rewrite assign_length); rewrite ?fill_length, ?map_length, ?combine_length, ?map_length, ?linspace_length, ?seq_length, ?new_rayset_length; try lia.

Lemma local_rays_held : forall rnd s wl p n,
  exists rs, batch_local_rays rnd s wl p n = Some rs /\ holds rs (fst (local_rays rnd s wl p n)).
Proof.
  intros rnd s wl p n. destruct setters_write as (PY & PZ & DX & DY & DZ & WL & IN & _).
  assert (N : exists rs, new_set n = Some rs /\ holds rs (new_rayset n)) by apply holds_new.
  destruct s as [sp|di|ca|wa|w l ma]; cbn [batch_local_rays local_rays fst].
  - apply write_fill; [exact Logic.I|exact WL|]. apply write_fill; [cbn; lia|exact DX|].
    destruct (1 <? n)%nat; [|exact N]. apply write_assign; [cbn; lia|exact PY|len|exact N].
  - apply write_fill; [exact Logic.I|exact WL|]. apply write_fill; [cbn; lia|exact DX|].
    apply write_assign; [cbn; lia|exact PZ|len|]. apply write_assign; [cbn; lia|exact PY|len|exact N].
  - apply write_fill; [exact Logic.I|exact WL|]. apply write_fill; [cbn; lia|exact DX|].
    destruct (1 <? n)%nat; [|exact N].
    apply write_assign; [cbn; lia|exact DZ|len|]. apply write_assign; [cbn; lia|exact DY|len|exact N].
  - apply write_fill; [exact Logic.I|exact WL|].
    apply write_assign; [cbn; lia|exact DY|len|]. apply write_assign; [cbn; lia|exact DX|len|exact N].
  - cbn [sphere_sample fst]. apply write_assign; [exact Logic.I|exact IN|len|].
    apply write_assign; [cbn; lia|exact DZ|len|]. apply write_assign; [cbn; lia|exact DY|len|].
    apply write_assign; [cbn; lia|exact DX|len|]. apply write_assign; [cbn; lia|exact PZ|len|].
    apply write_assign; [cbn; lia|exact PY|len|]. apply write_fill; [exact Logic.I|exact WL|exact N].
Qed.

Lemma generate_held : forall rnd s wl m p n cs,
  collect (fst (generate_rays rnd s wl m p n)) = Some cs ->
  exists rs, batch_generate rnd s wl m p n = Some rs /\ holds rs cs.
Proof.
  intros rnd s wl m p n cs E. unfold generate_rays in E. unfold batch_generate.
  destruct (local_rays_held rnd s wl p n) as (rs & -> & H). destruct (local_rays rnd s wl p n) as [ls p'].
  cbn [fst bind] in *. apply collect_some in E. cbv zeta.
  pose proof (holds_column rs ls H) as C. destruct H as (L & W & _).
  set (b0 := amap Fin rs).
  assert (L0 : rows13 b0) by (unfold rows13, b0, amap; cbn [rows]; rewrite map_length; exact L).
  assert (W0 : width b0 = length ls) by exact W.
  destruct (set_part_shape 0 (matmul m (part 0 b0)) b0 L0) as [L1 W1].
  set (b1 := set_part 0 (matmul m (part 0 b0)) b0) in *.
  destruct (set_part_shape 1 (matmul m (part 1 b0)) b1 L1) as [L2 W2].
  set (b2 := set_part 1 (matmul m (part 1 b0)) b1) in *.
  destruct (set_part_shape 1 (normalize0 (part 1 b2)) b2 L2) as [L3 W3].
  set (b3 := set_part 1 (normalize0 (part 1 b2)) b2) in *.
  assert (LC : length cs = length ls).
  { rewrite <- (map_length Some cs), <- E, map_length. reflexivity. }
  assert (COL : forall j c, nth_error cs j = Some c -> column b3 j = floats c).
  { intros j c Ec. assert (J : (j < length ls)%nat) by (rewrite <- LC; apply nth_error_Some; congruence).
    destruct (nth_error ls j) as [c0|] eqn:E0; [|apply nth_error_None in E0; lia].
    assert (P : place_ray m c0 = Some c).
    { assert (X : nth_error (map (place_ray m) ls) j = Some (place_ray m c0)) by (rewrite nth_error_map, E0; reflexivity).
      rewrite E, nth_error_map, Ec in X. cbn in X. congruence. }
    unfold place_ray in P. cbn [with_ray c_ray] in P.
    assert (C0 : column b0 j = floats c0) by (unfold b0; rewrite column_amap, (C j c0 E0); reflexivity).
    assert (M : forall k, (k < 2)%nat -> column (matmul m (part k b0)) j =
              vec_list (mapply m (if k =? 0 then origin (c_ray c0) else direction (c_ray c0))%nat)).
    { intros k K. apply matmul_vec. apply part_floats; auto. lia. }
    assert (C1 : column b1 j = floats (with_ray (Ray (mapply m (origin (c_ray c0))) (direction (c_ray c0))) c0)).
    { apply (set_part_floats 0); auto; try lia. apply (M 0%nat). lia. }
    assert (C2 : column b2 j = floats (with_ray (ray_map m (c_ray c0)) c0)).
    { apply (set_part_floats 1 _ b1 j (with_ray (Ray (mapply m (origin (c_ray c0))) (direction (c_ray c0))) c0)); auto; try lia.
      apply (M 1%nat). lia. }
    destruct (vnormalize (direction (ray_map m (c_ray c0)))) as [d|] eqn:V; [|discriminate]. injection P as <-.
    apply (set_part_floats 1 _ b2 j (with_ray (ray_map m (c_ray c0)) c0)); auto; try lia.
    rewrite (column_normalize (part 1 b2) j (direction (ray_map m (c_ray c0)))), V; [reflexivity|].
    apply (part_floats 1 b2 j (with_ray (ray_map m (c_ray c0)) c0)); auto; lia. }
  assert (F : finite_values b3 = true).
  { unfold finite_values. apply forallb_forall. intros j I. apply in_seq in I.
    destruct (nth_error cs j) as [c|] eqn:Ec; [|apply nth_error_None in Ec; lia]. rewrite (COL j c Ec). reflexivity. }
  rewrite F. eexists. split; [reflexivity|]. apply column_holds.
  - unfold is_rayset, to_real, amap. cbn [rows]. rewrite map_length. exact L3.
  - unfold to_real, amap. cbn [width]. lia.
  - intros j c Ec. unfold to_real. rewrite column_amap, (COL j c Ec). reflexivity.
Qed.
