(** * RoundedExact: the tracer of Tracer.v is the one of Rounded.v with exact arithmetic *)
From Coq Require Import Reals List Bool ZArith Lia.
Import ListNotations.
From Verif Require Import XR Lin Prim Csg Surf World Tracer SpecTrace Rounded SpecRounded RoundedFacts RoundedProps RoundedAlone.
Open Scope R_scope.

(** Exact arithmetic on rays; [None] and [NaN] stand for nan *)
Definition x_hit (asort : list xr -> list nat) (comps : list shape) (b : option ray) : xr * Z :=
  match b with Some r => fold_left (propagate_shape asort r) comps (PInf, (-1)%Z) | None => (PInf, (-1)%Z) end.
Definition x_advance (q : xr * option ray) : option ray :=
  match q with (Fin t, Some r) => Some (Ray (vadd (origin r) (vscale t (direction r))) (direction r)) | _ => None end.
Definition x_trace (s : surf) : option (option ray * xr * xr -> option ray * xr) :=
  match s_mat s with
  | Untraceable => None
  | _ => Some (fun q => match q with
                        | (Some r, Fin wl, Fin n) => match material_trace s (Col r 0 0 wl n 0) with Some c => (Some (c_ray c), Fin (c_idx c)) | None => (None, NaN) end
                        | _ => (None, NaN)
                        end)
  end.
Definition x_absorbed (b : option ray) : bool := match b with Some r => isclose (vnorm (direction r)) 0 | None => false end.
Definition x_tilt (b : option ray) : option v4 := match b with Some r => vnormalize (trim (direction r)) | None => None end.
Definition x_offset (b : option ray) : option ray := x_advance (Fin ray_offset_value, b).
Definition at_pos {A B : Type} (d : B) (f : A -> B) (xs : list A) (i : nat) : B := match nth_error xs i with Some x => f x | None => d end.
Definition exact (asort : list xr -> list nat) (comps : list shape) : kernels :=
  Kernels xr (option v4) (option ray) surf
    (option_map (fun r => trim (origin r))) (option_map (fun r => Ray (origin r) zero4))
    (at_pos (PInf, (-1)%Z) (x_hit asort comps)) (at_pos None x_advance)
    (fun s xs => match x_trace s with None => None | Some f => Some (fun i => at_pos (None, NaN) f xs i) end)
    (at_pos false x_absorbed) (fun x => match x with Fin v => rltb v ray_intensity_threshold | _ => false end)
    (at_pos None x_tilt) (at_pos None x_offset).
Definition exact_one (asort : list xr -> list nat) (comps : list shape) : one_ray (exact asort comps) :=
  OneRay (exact asort comps) (x_hit asort comps) x_advance x_trace x_absorbed x_tilt x_offset.

Definition up (asort : list xr -> list nat) (comps : list shape) (c : col) : ncol (exact asort comps) :=
  @NCol (exact asort comps) (Some (c_ray c)) (c_gen c) (Fin (c_int c)) (Fin (c_wl c)) (Fin (c_idx c)) (c_id c).
Definition up_row (asort : list xr -> list nat) (comps : list shape) (w : row) : nrow (exact asort comps) :=
  @NRow (exact asort comps) (row_gen w) (Fin (row_int w)) (Fin (row_wl w)) (Fin (row_idx w)) (row_id w) (row_surf w)
    (Some (row_start w)) (Some (row_end w)) (Some (row_tilt w)).

Lemma at_pos_by_itself : forall A B (d : B) (f : A -> B), by_itself (at_pos d f) f.
Proof. intros A B d f xs i x E. unfold at_pos. rewrite E. reflexivity. Qed.
Lemma exact_ray_by_ray : forall asort comps, ray_by_ray (exact asort comps) (exact_one asort comps).
Proof.
  intros asort comps. unfold ray_by_ray; cbn. repeat (split; [apply at_pos_by_itself|]).
  intros s xs. destruct (x_trace s) as [f|]; [|reflexivity]. eexists. split; [reflexivity|]. intros i x E. unfold at_pos. rewrite E. reflexivity.
Qed.

Definition asked {K : kernels} (e : Z * surface K) (x : ncell K) : bool := Z.eqb (snd (fst x)) (fst e).
Lemma surface_skip : forall K e cells, existsb (asked e) cells = false -> n_surface K e cells = Some cells.
Proof. intros K e cells E. unfold n_surface. cbv zeta. unfold asked in E. rewrite E. reflexivity. Qed.
Lemma surface_raises : forall K e cells, n_surface K e cells = None -> existsb (asked e) cells = true /\ exists xs, k_trace K (snd e) xs = None.
Proof.
  intros K e cells N. unfold n_surface in N. cbv zeta in N. unfold asked. destruct (existsb _ cells); [|discriminate]. split; [reflexivity|].
  destruct (k_trace K (snd e) _) eqn:T; [discriminate|]. eauto.
Qed.

Definition lost {K : kernels} (O : one_ray K) (q : ncol K * ncell K) : bool := orb (o_absorbed K O (n_beam (fst q))) (Z.eqb (snd (fst (snd q))) (-1)).
Lemma dead_lost : forall K O, ray_by_ray K O -> forall rays cells, n_dead K rays cells = map (lost O) (combine rays cells).
Proof.
  intros K O RR rays cells. unfold n_dead. rewrite <- (map_length n_beam), (entries_by_itself _ _ _ _ _ (proj1 (proj2 (proj2 RR)))).
  revert cells. induction rays as [|c r IH]; intros [|x cells]; simpl; auto. f_equal. apply IH.
Qed.

Definition leg_of {K : kernels} (O : one_ray K) (q : ncol K * ncell K) : nrow K := leg K O (fst q) (snd (snd q)) (snd (fst (snd q))).
Lemma insert_legs : forall K O, ray_by_ray K O -> forall rays cells, n_insert K rays cells = map (leg_of O) (combine rays cells).
Proof.
  intros K O RR rays cells. unfold n_insert. rewrite <- (map_length n_beam), (entries_by_itself _ _ _ _ _ (proj1 (proj2 (proj2 (proj2 RR))))).
  revert cells. induction rays as [|c r IH]; intros [|(h, c') cells]; simpl; auto. f_equal. apply IH.
Qed.

Section Exact.
  Variable asort : list xr -> list nat.
  Variable comps : list shape.
  Local Notation K := (exact asort comps). Local Notation O := (exact_one asort comps).
  Local Notation UP := (up asort comps).

  Definition rel (x : cell) (y : ncell K) : Prop :=
    fst y = fst x /\ match snd x with Some c => snd y = UP c | None => @n_beam K (snd y) = None end.
  Definition unmasked (e : Z * surf) (x : cell) : bool := Z.eqb (snd (hit_of x)) (fst e).

  Lemma trace_ignores : forall s r g i wl n id, material_trace s (Col r g i wl n id) =
    match material_trace s (Col r 0 0 wl n 0) with Some c => Some (Col (c_ray c) g i wl (c_idx c) id) | None => None end.
  Proof.
    intros. unfold material_trace. cbn [c_ray c_wl c_idx]. destruct (s_mat s); auto.
    - destruct (world_normal s (origin r)); auto.
    - destruct (world_normal s (origin r)); auto. destruct (index_at wl); auto. destruct (Ops.refract _ _ _ _ _) as [[d m]|]; auto.
  Qed.
  Lemma act_rel : forall e x y, rel x y -> s_mat (snd e) <> Untraceable -> Z.eqb (snd (fst x)) (fst e) = true ->
    exists y', act K O e y = Some y' /\ rel (apply_surface (snd e) x) y'.
  Proof.
    intros (z, s) (h, oc) (h', y) (E & R) NU M. simpl in E, NU, M. subst h'. unfold act. simpl fst; simpl snd. rewrite M. cbn [o_trace exact_one].
    unfold x_trace. simpl in R. destruct (s_mat s) eqn:MA; try contradiction; (eexists; split; [reflexivity|]; split; [reflexivity|]);
      (destruct oc as [c|]; simpl snd; [subst y|cbn [o_advance exact_one]; rewrite R; destruct (fst h); reflexivity]);
      (destruct h as [[t| | |] zz]; simpl; [|reflexivity..]);
      (change (forward t c) with (Col (Ray (vadd (origin (c_ray c)) (vscale t (direction (c_ray c)))) (direction (c_ray c))) (c_gen c) (c_int c) (c_wl c) (c_idx c) (c_id c)));
      rewrite trace_ignores; destruct (material_trace s (Col _ 0 0 _ _ 0)); reflexivity.
  Qed.
  Lemma rel_mask : forall (e : Z * surface K) x y, rel x y -> asked e y = Z.eqb (snd (hit_of x)) (fst e).
  Proof. intros z x y (H & _). unfold hit_of, asked. f_equal. exact (f_equal snd H). Qed.
  Lemma entry_rel : forall e cells cells' ys, lut_entry e cells = Some cells' -> Forall2 rel cells ys ->
    exists ys', n_surface K e ys = Some ys' /\ Forall2 rel cells' ys'.
  Proof.
    intros (z, s) cells cells' ys E F.
    assert (EX : existsb (fun x : cell => Z.eqb (snd (hit_of x)) z) cells = existsb (@asked K (z, s)) ys).
    { clear E. induction F as [|x y xs ys' H _ IH]; [reflexivity|]. cbn [existsb]. rewrite IH. f_equal. symmetry. apply (rel_mask (z, s)). exact H. }
    unfold lut_entry in E. rewrite EX in E. destruct (existsb (@asked K (z, s)) ys) eqn:B.
    - assert (NU : s_mat s <> Untraceable) by (intro Q; rewrite Q in E; discriminate).
      assert (EC : cells' = map (fun x : cell => if Z.eqb (snd (hit_of x)) z then apply_surface s x else x) cells) by (destruct (s_mat s); congruence). subst cells'. clear E EX.
      destruct (n_surface K (z, s) ys) as [ys'|] eqn:N.
      + exists ys'. split; auto. pose proof (surface_alone K O (exact_ray_by_ray asort comps) _ _ _ N) as A. clear N B.
        revert ys' A. induction F as [|x y xs ys0 R _ IH]; intros ys' A; inversion A as [|? y' ? ys1 A1 A2]; subst; cbn [map]; constructor; auto.
        pose proof (rel_mask (z, s) x y R) as RM. cbn [fst] in RM.
        destruct (Z.eqb (snd (hit_of x)) z) eqn:M.
        * destruct (act_rel (z, s) x y R NU M) as (y2 & E2 & R2). rewrite E2 in A1. injection A1 as <-. exact R2.
        * unfold act in A1. unfold asked in RM. cbn [fst] in RM, A1. rewrite RM in A1. injection A1 as <-. exact R.
      + exfalso. apply surface_raises in N. destruct N as (_ & xs & T). cbn [k_trace exact snd] in T. unfold x_trace in T. destruct (s_mat s); congruence.
    - injection E as <-. exists ys. split; auto. apply surface_skip. exact B.
  Qed.
  Lemma pass_rel : forall lut cells cells' ys, lut_pass lut cells = Some cells' -> Forall2 rel cells ys ->
    exists ys', n_surfaces K lut ys = Some ys' /\ Forall2 rel cells' ys'.
  Proof.
    induction lut as [|e r IH]; intros cells cells' ys; simpl.
    - intros E F. injection E as <-. eauto.
    - destruct (lut_entry e cells) as [c1|] eqn:E1; [|discriminate]. intros E F. destruct (entry_rel _ _ _ _ E1 F) as (y1 & -> & F1). eapply IH; eauto.
  Qed.
  Lemma start_rel : forall rays, Forall2 rel (map (fun q : (xr * Z) * col => start_cell (fst q) (snd q)) (combine (map (propagate asort comps) rays) rays))
    (map (fun q => n_copy K (fst q) (snd q)) (combine (n_hits K (map UP rays)) (map UP rays))).
  Proof.
    intro rays. rewrite (hits_alone K O (exact_ray_by_ray asort comps)). induction rays as [|c r IH]; simpl; constructor; auto.
    unfold start_cell, n_copy, propagate. simpl. split; [reflexivity|]. simpl. destruct (Z.eqb _ _); reflexivity.
  Qed.
  Lemma dead_rel : forall rays cells ys, length rays = length cells -> Forall2 rel cells ys ->
    map negb (n_dead K (map UP rays) ys) = map (fun q : col * cell => negb (dead (fst q) (hit_of (snd q)))) (combine rays cells).
  Proof.
    intros rays cells ys L F. rewrite (dead_lost K O (exact_ray_by_ray asort comps)).
    revert cells ys L F. induction rays as [|c r IH]; intros [|x cells] ys L F; try discriminate; inversion F as [|? y ? ys' H F']; subst; cbn [map combine]; auto.
    f_equal; [|apply (IH cells ys'); auto]. unfold lost, dead, logical_or_out, hit_of. cbn [fst snd]. f_equal. exact (f_equal2 orb eq_refl (f_equal (fun h => Z.eqb (snd h) (-1)) (proj1 H))).
  Qed.
  Lemma filter_select : forall A (f : A -> bool) xs, filter f xs = select (map f xs) xs.
  Proof. induction xs as [|x r IH]; simpl; auto. destruct (f x); rewrite IH; reflexivity. Qed.
  Lemma select_map : forall A B (f : A -> B) m xs, select m (map f xs) = map f (select m xs).
  Proof. intros A B f m. induction m as [|[] m IH]; intros [|x xs]; simpl; auto. f_equal. apply IH. Qed.
  Lemma select_fst : forall A B m (xs : list A) (ys : list B), length xs = length ys -> map fst (select m (combine xs ys)) = select m xs.
  Proof. intros A B m xs ys L. rewrite <- select_map. rewrite combine_fst; auto. Qed.
  Lemma select_snd : forall A B m (xs : list A) (ys : list B), length xs = length ys -> map snd (select m (combine xs ys)) = select m ys.
  Proof. intros A B m xs ys L. rewrite <- select_map. rewrite combine_snd; auto. Qed.
  Lemma collect_rel : forall cells next ys, collect (map snd cells) = Some next -> Forall2 rel cells ys -> Forall2 (fun c y => snd y = UP c) next ys.
  Proof.
    induction cells as [|(h, oc) r IH]; intros next ys E F; inversion F as [|? y ? ys' (_ & R) F']; subst; simpl in E.
    - injection E as <-. constructor.
    - simpl in R. destruct oc as [c|]; [|discriminate]. destruct (collect (map snd r)) as [n|]; [|discriminate]. injection E as <-. constructor; auto.
  Qed.

  Lemma rows_rel : forall (living : list (col * cell)) next ys new, collect (map (fun q : col * cell => snd (snd q)) living) = Some next ->
    collect (map (fun q : (col * cell) * col => make_row (fst (fst q)) (snd q) (snd (hit_of (snd (fst q))))) (combine living next)) = Some new ->
    Forall2 rel (map snd living) ys -> map (leg_of O) (combine (map UP (map fst living)) ys) = map (up_row asort comps) new.
  Proof.
    induction living as [|(c, (h, oc)) l IH]; intros next ys new E1 E2 F.
    - simpl in E1. injection E1 as <-. injection E2 as <-. reflexivity.
    - inversion F as [|? y ? ys' R F']; subst. cbn [map snd collect] in E1. destruct oc as [c'|]; [|discriminate].
      destruct (collect (map _ l)) as [n|] eqn:C1; [|discriminate]. injection E1 as <-. cbn [combine map collect] in E2. cbn [fst snd] in E2.
      unfold make_row in E2 at 1. destruct (vnormalize (trim (direction (c_ray c)))) as [tl|] eqn:V; [|discriminate].
      destruct (collect (map _ (combine l n))) as [w|] eqn:C2; [|discriminate]. injection E2 as <-.
      cbn [map combine]. f_equal; [|apply (IH n ys' w eq_refl C2 F')].
      destruct R as (R1 & R2). cbn [snd] in R2. destruct y as (h', y'). cbn [snd fst] in R1, R2. subst h' y'.
      unfold leg_of, leg, up_row. cbn. f_equal. exact V.
  Qed.
  Lemma next_rel : forall m (ys : list (ncell K)) next, Forall2 (fun c y => snd y = UP c) next (select m ys) ->
    map snd (select m ys) = map UP next.
  Proof. intros m ys next F. induction F; cbn [map]; auto. f_equal; auto. Qed.

  (** One generation *)
  Lemma interact_rel : forall lut limit gen rays fuel rows,
    match interact lut limit gen rays (map (propagate asort comps) rays) with
    | IAllDead => n_loop K (S fuel) lut limit gen (map UP rays) rows = Finished rows
    | INext new rays' gen' true => n_loop K (S fuel) lut limit gen (map UP rays) rows = Finished (rows ++ map (up_row asort comps) new)
    | INext new rays' gen' false => n_loop K (S fuel) lut limit gen (map UP rays) rows = n_loop K fuel lut limit gen' (map UP rays') (rows ++ map (up_row asort comps) new)
    | _ => True
    end.
  Proof.
    intros lut limit gen rays fuel rows. unfold interact. destruct (lut_pass lut _) as [cells|] eqn:P; [|exact I].
    destruct (pass_rel _ _ _ _ P (start_rel rays)) as (ys & EY & F).
    assert (LC : length rays = length cells).
    { assert (X : forall l a b, lut_pass l a = Some b -> length b = length a).
      { clear. induction l as [|(z, s) r IH]; intros a b E; simpl in E; [congruence|]. unfold lut_entry in E. destruct (existsb _ a).
        - destruct (s_mat s); try discriminate; apply IH in E; rewrite map_length in E; exact E.
        - apply IH in E. exact E. }
      apply X in P. rewrite P, map_length, combine_length, map_length. lia. }
    pose proof (dead_rel rays cells ys LC F) as D. set (mk := fun q : col * cell => negb (dead (fst q) (hit_of (snd q)))) in *.
    assert (LY := forall2_length _ _ _ _ _ F).
    cbn [n_loop]. cbv zeta. rewrite EY, D. rewrite filter_select. set (m := map mk (combine rays cells)) in *.
    set (living := select m (combine rays cells)).
    assert (AD : forallb (fun b => b) (n_dead K (map UP rays) ys) = match living with [] => true | _ => false end).
    { destruct (forallb (fun b => b) (n_dead K (map UP rays) ys)) eqn:B.
      - apply (all_dead_select _ _ ys) in B; [|rewrite dead_length; rewrite map_length; lia]. rewrite D in B. 
        assert (X : select m cells = []). { apply length_zero_iff_nil. rewrite (forall2_length _ _ _ _ _ (select_forall2 _ _ _ m _ _ F)), B. reflexivity. }
        rewrite <- (select_snd _ _ m rays cells LC) in X. apply map_eq_nil in X. unfold living. rewrite X. reflexivity.
      - destruct living as [|q l] eqn:LV; auto. exfalso. assert (X : select m ys = []).
        { apply length_zero_iff_nil. rewrite <- (forall2_length _ _ _ _ _ (select_forall2 _ _ _ m _ _ F)). rewrite <- (select_snd _ _ m rays cells LC). fold living. rewrite LV. reflexivity. }
        rewrite <- D in X. apply all_dead_select in X; [congruence|]. rewrite dead_length; rewrite map_length; lia. }
    rewrite AD. destruct living as [|q0 l0] eqn:LV; [reflexivity|]. rewrite <- LV. clear AD.
    destruct (collect (map (fun q : col * cell => snd (snd q)) living)) as [next|] eqn:CN; [|exact I].
    assert (CN' := CN). unfold living in CN'. change (fun q : col * cell => snd (snd q)) with (fun q : col * cell => @snd (xr * Z) (option col) (snd q)) in CN'. rewrite <- (map_map (@snd col cell) (@snd (xr * Z) (option col))) in CN'. rewrite (select_snd _ _ m rays cells LC) in CN'.
    pose proof (select_forall2 _ _ _ m _ _ F) as FS. pose proof (collect_rel _ _ _ CN' FS) as FN.
    destruct (collect (map _ (combine living next))) as [new|] eqn:CR; [|exact I].
    assert (NR : n_insert K (select m (map UP rays)) (select m ys) = map (up_row asort comps) new).
    { rewrite (insert_legs K O (exact_ray_by_ray asort comps)), select_map, <- (select_fst _ _ m rays cells LC). fold living.
      apply (rows_rel living next); auto. unfold living. rewrite (select_snd _ _ m rays cells LC). exact FS. }
    rewrite NR. cbv zeta.
    assert (NX : map (set_generation K (S gen)) (map snd (select m ys)) = map UP (map (with_gen (S gen)) next)).
    { rewrite (next_rel _ _ _ FN), !map_map. reflexivity. }
    rewrite NX. destruct (Z.eqb (Z.of_nat (S gen)) limit); [reflexivity|]. f_equal.
    rewrite (offset_alone K O (exact_ray_by_ray asort comps)), !map_map. reflexivity.
  Qed.
End Exact.

Lemma number_up : forall asort comps cs k, map (fun q : nat * ncol (exact asort comps) => set_id _ (fst q) (snd q)) (combine (seq k (length cs)) (map (up asort comps) cs)) = map (up asort comps) (renumber k cs).
Proof. induction cs as [|c r IH]; intro k; simpl; auto. f_equal. apply IH. Qed.

Section Run.
  Variable asort : list xr -> list nat.
  Variable h : heap.
  Variable gen : loc -> nat -> list col.
  Lemma run_rel : forall fuel t t', t_state t = PROPAGATE -> run_states asort h gen fuel t = TOk t' ->
    exists comps lut, collect (map (shape_of h) (t_comps t)) = Some comps /\ collect (map (entry_of h) (t_lut t)) = Some lut /\
    n_loop (exact asort comps) fuel lut (t_limit t) (t_gen t) (map (up asort comps) (t_rays t)) (map (up_row asort comps) (f_rows (t_frame t))) =
    Finished (map (up_row asort comps) (f_rows (t_frame t'))).
  Proof.
    induction fuel as [fuel IH] using lt_wf_ind. intros t t' P R.
    destruct fuel as [|fuel]; [simpl in R; rewrite P in R; discriminate|].
    cbn [run_states] in R. rewrite P in R. unfold st_propagate in R.
    destruct (collect (map (shape_of h) (t_comps t))) as [comps|] eqn:C; [|discriminate]. cbn [tbind] in R.
    destruct fuel as [|fuel]; [discriminate|].
    cbn [run_states t_state set_state set_hits] in R. unfold st_interact in R.
    cbn [t_lut t_limit t_gen t_rays t_hits t_frame set_hits set_state] in R.
    destruct (collect (map (entry_of h) (t_lut t))) as [lut|] eqn:L; [|discriminate].
    pose proof (interact_rel asort comps lut (t_limit t) (t_gen t) (t_rays t)) as I.
    exists comps, lut. split; [auto|]. split; [auto|].
    specialize (I (S fuel) (map (up_row asort comps) (f_rows (t_frame t)))).
    destruct (interact lut (t_limit t) (t_gen t) (t_rays t) (map (propagate asort comps) (t_rays t)))
      as [|rows rays g fin| |]; cbn [tbind] in R; try discriminate.
    - destruct fuel as [|fuel]; [discriminate|]. cbn in R. rewrite I.
      assert (Q : f_rows (t_frame t') = f_rows (t_frame t)) by (destruct fuel; cbn in R; inversion R; auto). rewrite Q. reflexivity.
    - destruct fin; cbn [tbind] in R; rewrite I.
      + destruct fuel as [|fuel]; [discriminate|]. cbn [run_states t_state set_state] in R. unfold st_finish in R. cbn [tbind] in R.
        assert (Q : f_rows (t_frame t') = f_rows (t_frame t) ++ rows) by (destruct fuel; cbn in R; inversion R; auto). rewrite Q, map_app. reflexivity.
      + match type of R with run_states _ _ _ _ ?t1 = _ => destruct (IH fuel ltac:(lia) t1 t' eq_refl R) as (comps' & lut' & C' & L' & F) end.
        cbn [t_comps t_lut t_rays t_gen t_limit t_frame t_state t_n t_sources f_rows set_state set_gen set_rays set_frame set_hits] in *.
        rewrite C in C'. inversion C'; subst comps'. rewrite L in L'. inversion L'; subst lut'.
        rewrite map_app in F. rewrite (loop_fuel (exact asort comps) lut (t_limit t) fuel (S fuel)); [exact F|lia|rewrite F; discriminate].
  Qed.
  Theorem exact_trace : forall fuel t t', trace asort h gen fuel t = TOk t' ->
    exists comps lut, collect (map (shape_of h) (t_comps t)) = Some comps /\ collect (map (entry_of h) (t_lut t)) = Some lut /\
    n_trace (exact asort comps) fuel lut (t_limit t) (map (up asort comps) (source_rays gen t)) = Finished (map (up_row asort comps) (f_rows (get_results t'))).
  Proof.
    intros fuel t t' R. unfold trace in R. destruct fuel as [|fuel]; [discriminate|].
    cbn [run_states t_state set_state] in R. unfold st_initialize in R.
    destruct (t_sources (reset (set_state INITIALIZE t))) as [|s ss] eqn:S; [discriminate|].
    cbn [tbind] in R. rewrite <- S in R. apply run_rel in R; [|reflexivity]. destruct R as (comps & lut & C & L & F). exists comps, lut. split; [exact C|]. split; [exact L|].
    unfold n_trace, n_number. rewrite map_length, number_up.
    change (n_loop (exact asort comps) fuel lut (t_limit t) 0 (map (up asort comps) (renumber 0 (source_rays gen t))) [] = Finished (map (up_row asort comps) (f_rows (t_frame t')))) in F.
    etransitivity; [|exact F]. apply (loop_fuel (exact asort comps)); [auto|]. intro Q. rewrite Q in F. discriminate F.
  Qed.
End Run.
