(** * TraceFacts7: the legs of a ray, and scenes built by programs *)
From Coq Require Import Reals List Bool ZArith Lia Lra Psatz.
Import ListNotations.
From Verif Require Import XR Arr Lin LinFacts Ops Prim Csg Surf SpecGeom SpecTree World SpecWorld SpecOptics Tracer SpecTrace
  XRFacts PrimFacts PrimFacts2 TreeFacts NormalFacts OpsFacts CsgProps
  TraceFacts TraceFacts2 TraceFacts3 TraceFacts4 TraceFacts5 TraceFacts6.
Open Scope R_scope.

Lemma same_surface : forall (l : list surf) a b, NoDup (map s_id l) -> In a l -> In b l -> s_id a = s_id b -> a = b.
Proof.
  induction l as [|x l IH]; intros a b ND A B E; [contradiction|]. simpl in ND. inversion ND as [|? ? N1 N2]; subst.
  destruct A as [->|A], B as [->|B]; auto.
  - elim N1. rewrite E. apply in_map; auto.
  - elim N1. rewrite <- E. apply in_map; auto.
Qed.

Lemma trim_w0 : forall v, vw v = 0 -> trim v = v.
Proof. intros [x y z w] H. cbn in H. subst. reflexivity. Qed.
Lemma here_trim : forall v, vw v = 1 -> here (trim v) = v.
Proof. intros [x y z w] H. cbn in H. subst. reflexivity. Qed.
Lemma hat_id : forall v, unit v -> hat v = v.
Proof. exact hat_unit. Qed.
Lemma trim_at : forall r t, vw (direction r) = 0 -> trim (ray_at r t) = vadd (trim (origin r)) (vscale t (direction r)).
Proof. intros r t H. unfold trim, ray_at, vset_w, vadd, vscale; cbn [vx vy vz vw]. rewrite H. f_equal. ring. Qed.

Section Legs.
  Variable asort : list xr -> list nat.
  Hypothesis AS : argsort_ok asort.
  Variable comps : list shape.
  Notation surfaces := (flat_map surface_ids comps).
  Hypothesis ND : NoDup (map s_id surfaces).
  Variable P : R -> Prop.
  Hypothesis PARTS : forall s, In s surfaces -> part_ok P s.
  Variable limit : Z.

  (** the first hit names a surface of the scene that reports it *)
  Lemma first_hit_at : forall r t s, first_hit asort comps r t (s_id s) -> In s surfaces -> In (Fin t) (surf_hits s r).
  Proof.
    intros r t s F I. destruct (first_hit_surface asort AS _ _ _ _ F) as (sh & f & S & IF & E & H).
    assert (f = s); [|subst; auto]. apply (same_surface surfaces); auto. apply in_flat_map; eauto.
  Qed.

  Lemma material_bounce : forall s c t c', In s surfaces -> good P c -> unit (direction (c_ray c)) ->
    In (Fin t) (surf_hits s (c_ray c)) -> material_trace s (forward t c) = Some c' ->
    (s_mat s = Absorber /\ direction (c_ray c') = zero4) \/
    (unit (direction (c_ray c')) /\
     forall w w', row_surf w = s_id s -> row_end w = trim (ray_at (c_ray c) t) -> row_tilt w = direction (c_ray c) ->
       row_idx w = c_idx c -> row_wl w = c_wl c -> row_tilt w' = direction (c_ray c') -> row_idx w' = c_idx c' ->
       bounce surfaces w w').
  Proof.
    intros s c t c' I ((O1 & D0 & _ & I0) & WL) U H M. pose proof (PARTS s I) as OK.
    destruct (hit_normal P s c t OK H) as (n & N & UN & WN).
    assert (AT : vw (ray_at (c_ray c) t) = 1).
    { unfold ray_at; cbn [vw]. rewrite O1, D0. ring. }
    rewrite forward_origin in N. destruct OK as (_ & _ & _ & _ & _ & MO).
    unfold material_trace in M. rewrite forward_origin, N in M. unfold bounce.
    destruct (s_mat s) as [| |f|] eqn:EM; [left|right|right|discriminate].
    - inversion M; subst. auto.
    - inversion M as [M']; subst c'. clear M. cbn [c_ray direction with_direction with_ray origin c_idx forward].
      split; [unfold unit in *; rewrite reflect_length; auto|].
      intros w w' E1 E2 E3 E4 E5 E6 E7. exists s, n. rewrite E2, here_trim by auto. rewrite EM, E3, E4, E6, E7.
      repeat split; auto; [apply reflect_dot_normal; auto|apply reflect_tangential; auto].
    - cbn [c_wl c_idx forward with_ray c_ray direction] in M. destruct (MO _ WL) as (n2 & E2' & P2). rewrite E2' in M.
      assert (NG : 0 < world_index) by (unfold world_index; lra).
      assert (V : vdot (direction (c_ray c)) (direction (c_ray c)) <> 0) by (unfold unit in U; lra).
      destruct (Rlt_le_dec (c_idx c * vnorm (tangential (direction (c_ray c)) n)) (next_index (direction (c_ray c)) n n2 world_index)) as [L|L].
      + assert (L' := L). rewrite <- (hat_unit _ U) in L' at 1.
        destruct (refract_snell (direction (c_ray c)) n (c_idx c) n2 world_index V UN I0 P2 NG L') as (d & R & UD & SN & SI).
        rewrite R in M. inversion M as [M']; subst c'. clear M.
        cbn [c_ray direction with_idx with_direction with_ray origin c_idx forward]. split; auto.
        intros w w' E1 E2 E3 E4 E5 E6 E7. exists s, n. rewrite E2, here_trim by auto. rewrite EM, E3, E4, E5, E6, E7.
        repeat (split; [solve [auto]|]). exists n2. split; auto. rewrite (hat_unit _ U) in SN.
        split; [auto|]. intros K. lra.
      + assert (L' := L). rewrite <- (hat_unit _ U) in L' at 2.
        destruct (refract_tir (direction (c_ray c)) n (c_idx c) n2 world_index V UN I0 P2 NG L') as (d & R & UD & MI).
        rewrite R in M. inversion M as [M']; subst c'. clear M.
        cbn [c_ray direction with_idx with_direction with_ray origin c_idx forward]. split; auto.
        intros w w' E1 E2 E3 E4 E5 E6 E7. exists s, n. rewrite E2, here_trim by auto. rewrite EM, E3, E4, E5, E6, E7.
        repeat (split; [solve [auto]|]). exists n2. split; auto. rewrite (hat_unit _ U) in MI.
        split; [intros K; lra|auto].
  Qed.

  Lemma zero_stopped : forall c, direction (c_ray c) = zero4 -> stopped c.
  Proof. intros c H. unfold stopped. rewrite H, zero4_norm. pose proof atol_pos. lra. Qed.
  Lemma unit_live : forall c, unit (direction (c_ray c)) -> ~ stopped c.
  Proof.
    intros c U S. unfold stopped, vnorm in S. rewrite U, sqrt_1 in S. unfold atol in S. lra.
  Qed.

  Lemma history_legs : forall g c rows, history asort comps surfaces limit g c rows -> good P c -> c_gen c = g ->
    (forall w, nth_error rows 0 = Some w -> first_row c w) /\
    (forall j w, nth_error rows j = Some w -> leg asort comps w) /\
    (forall j w w', nth_error rows j = Some w -> nth_error rows (S j) = Some w' -> follows w w' /\ bounce surfaces w w') /\
    (forall j w, nth_error rows j = Some w -> nth_error rows (S j) = None -> over asort comps limit w) /\
    (rows = [] -> unit (direction (c_ray c)) -> (0 < g)%nat /\ Z.of_nat g = limit \/ no_hit asort comps (c_ray c)).
  Proof.
    intros g c rows H. induction H as [g c G L|g c S|g c t sid s c' rows B NS F I E M HI IH]; intros GD GE.
    - repeat split; intros; try (destruct j; discriminate); try discriminate. left; auto.
    - repeat split; intros; try (destruct j; discriminate); try discriminate. right. destruct S as [S|S]; auto.
      elim (unit_live c); auto.
    - assert (U : unit (direction (c_ray c))) by (apply (live_unit c); [exact (proj1 GD)|auto]).
      subst sid. pose proof (first_hit_at _ _ _ F I) as SH.
      destruct (material_ok P s c t (PARTS s I) SH (proj1 GD) U (proj2 GD)) as (c1 & M1 & OK1 & W1 & O1).
      assert (c1 = c') by congruence. subst c1. clear M1.
      pose proof GD as ((OW & DW & _ & _) & _).
      set (nx := forward ray_offset_value (with_gen (S g) c')) in *.
      assert (GN : good P nx).
      { destruct OK1 as (A1 & A2 & A3 & A4). split; [|unfold nx; cbn; rewrite W1; apply GD].
        unfold nx, ray_ok, forward; cbn [c_ray with_ray with_gen origin direction c_idx]. repeat split; auto.
        unfold vadd, vscale; cbn [vw]. rewrite A1, A2. ring. }
      assert (GG : c_gen nx = S g) by reflexivity.
      destruct (IH GN GG) as (IH1 & IH2 & IH3 & IH4 & IH5).
      destruct (material_bounce s c t c' I GD U SH M) as [MB|MB].
      + (* absorbed *)
        destruct MB as [MA MZ].
        assert (RN : rows = []).
        { inversion HI; subst; auto. exfalso.
          match goal with K : ~ stopped _ |- _ => apply K end. apply zero_stopped. exact MZ. }
        subst rows. set (w0 := Row _ _ _ _ _ _ _ _ _).
        assert (FR : first_row c w0).
        { unfold first_row, w0; cbn [row_start row_tilt row_idx row_wl row_gen].
          rewrite (trim_w0 (direction (c_ray c))), hat_unit by auto. repeat split; auto. }
        split; [intros w W; inversion W; subst; auto|]. split.
        { intros [|j] w W; [|destruct j; discriminate]. inversion W; subst w.
          unfold leg, w0; cbn [row_tilt row_start row_end row_surf]. rewrite (trim_w0 (direction (c_ray c))), hat_unit by auto.
          repeat split; auto. exists t. split; [eapply first_hit_pos; eauto|].
          split; [rewrite O1, trim_at; auto|]. rewrite here_trim by auto. destruct (c_ray c); exact F. }
        split; [intros j w w' W W'; destruct j; discriminate|]. split; [|discriminate].
        intros [|j] w W _; [|destruct j; discriminate]. inversion W; subst w. right; left.
        exists s. unfold w0; cbn. auto.
      + destruct MB as [UN MB]. set (w0 := Row _ _ _ _ _ _ _ _ _).
        assert (FR : first_row c w0).
        { unfold first_row, w0; cbn [row_start row_tilt row_idx row_wl row_gen].
          rewrite (trim_w0 (direction (c_ray c))), hat_unit by auto. repeat split; auto. }
        assert (DN : direction (c_ray nx) = direction (c_ray c')) by reflexivity.
        destruct OK1 as (A1 & A2 & A3 & A4).
        assert (ON : trim (origin (c_ray nx)) = vadd (row_end w0) (vscale ray_offset_value (direction (c_ray c')))).
        { unfold nx, w0, forward; cbn [c_ray with_ray with_gen origin row_end]. unfold trim, vset_w, vadd, vscale; cbn [vx vy vz vw].
          rewrite A2. f_equal. ring. }
        split; [intros w W; inversion W; subst; auto|]. split; [|split; [|split; [|discriminate]]].
        * intros [|j] w W; [|eapply IH2; eauto]. inversion W; subst w.
          unfold leg, w0; cbn [row_tilt row_start row_end row_surf]. rewrite (trim_w0 (direction (c_ray c))), hat_unit by auto.
          repeat split; auto. exists t. split; [eapply first_hit_pos; eauto|].
          split; [rewrite O1, trim_at; auto|]. rewrite here_trim by auto. destruct (c_ray c); exact F.
        * intros [|j] w w' W W'; [|eapply IH3; eauto]. inversion W; subst w. simpl in W'.
          destruct (IH1 _ W') as (F1 & F2 & F3 & F4 & F5 & F6). split.
          -- split; [rewrite F1, F2, DN; exact ON|]. rewrite F5. unfold w0; cbn. rewrite GE. auto.
          -- apply MB; auto; unfold w0; cbn [row_end row_tilt]; auto.
             ++ rewrite O1. auto.
             ++ rewrite trim_w0, hat_unit; auto.
        * intros [|j] w W W'; [|eapply IH4; eauto]. inversion W; subst w. simpl in W'. destruct rows; [|discriminate].
          destruct IH5 as [[K1 K2]|K]; auto.
          -- left. unfold w0; cbn [row_gen]. rewrite GE. auto.
          -- right; right.
             exists (Row (S g) 0 0 (c_idx c') 0 0 (trim (origin (c_ray nx))) zero4 (direction (c_ray c'))).
             cbn [row_tilt row_start]. split; [|split; [|split; [|split]]]; auto.
             ++ split; [exact ON|]. unfold w0; cbn. rewrite GE. auto.
             ++ apply MB; auto; unfold w0; cbn [row_end row_tilt]; auto.
                ** rewrite O1. auto.
                ** rewrite trim_w0, hat_unit; auto.
             ++ rewrite here_trim by apply GN. rewrite <- DN. destruct (c_ray nx); exact K.
  Qed.
End Legs.
