(** * TraceFacts6: in a well-formed scene a trace succeeds *)
From Coq Require Import Reals List Bool ZArith Lia Lra Psatz.
Import ListNotations.
From Verif Require Import XR Arr Lin LinFacts Ops Prim Csg Surf SpecGeom SpecTree World SpecWorld SpecOptics Tracer SpecTrace
  XRFacts PrimFacts PrimFacts2 TreeFacts NormalFacts OpsFacts CsgProps
  TraceFacts TraceFacts2 TraceFacts3 TraceFacts4 TraceFacts5.
Open Scope R_scope.

(** ** A normal exists at every hit *)
Lemma vnormalize_ok : forall a, a <> V4 0 0 0 0 -> vw a = 0 ->
  exists n, vnormalize a = Some n /\ vw n = 0 /\ vdot n n = 1.
Proof.
  intros a H W. destruct (vnormalize_pos a H) as (k & K & E & U). exists (vscale k a). repeat split; auto.
  unfold vscale; cbn [vw]. rewrite W. ring.
Qed.

Lemma binomial_ends_ge : forall a b c t, 0 <= a -> ends (binomial_root a b c) t -> 0 <= a * t * t + b * t + c.
Proof.
  intros a b c t A H. destruct (isclose a 0) eqn:La.
  - destruct (isclose b 0) eqn:Lb.
    + unfold binomial_root in H. rewrite La, Lb in H. simpl andb in H.
      destruct (rleb 0 (b * b - 4 * a * c)); destruct (rleb c 0); destruct H as [H|H]; discriminate.
    + pose proof (isclose_false_neq _ Lb) as Nb. unfold binomial_root in H. rewrite La, Lb in H.
      assert (Eb : reqb b 0 = false).
      { apply reqb_false; auto. }
      rewrite Eb in H. unfold b2r in H. rewrite Rplus_0_r, (xdiv_fin (- c) b) in H by auto. simpl andb in H. cbv iota in H.
      assert (T : t = - c / b).
      { destruct (rleb 0 (b * b - 4 * a * c)); destruct H as [H|H]; cbn [fst snd] in H; injection H as <-; reflexivity. }
      assert (E : b * t = - c) by (rewrite T; field; auto).
      pose proof (Rle_0_sqr t) as S. unfold Rsqr in S. pose proof (Rmult_le_pos a (t * t) A S). lra.
  - assert (L : atol < a).
    { unfold isclose in La. apply rleb_false in La. rewrite Rminus_0_r, Rabs_R0, Rabs_right in La by lra. lra. }
    rewrite (binomial_ends a b c t); auto. lra.
Qed.

Lemma cube_ends : forall c0 c1 r t, ends (cube_hits (cube_box (fin3 c0) (fin3 c1)) r) t ->
  let '(x0, y0, z0) := c0 in let '(x1, y1, z1) := c1 in
  (vx (ray_at r t) = x0 \/ vx (ray_at r t) = x1) \/ (vy (ray_at r t) = y0 \/ vy (ray_at r t) = y1) \/
  (vz (ray_at r t) = z0 \/ vz (ray_at r t) = z1).
Proof.
  intros [[x0 y0] z0] [[x1 y1] z1] r t H.
  assert (EB : cube_box (fin3 (x0, y0, z0)) (fin3 (x1, y1, z1)) =
    fin_box (Rmin x0 x1) (Rmax x0 x1) (Rmin y0 y1) (Rmax y0 y1) (Rmin z0 z1) (Rmax z0 z1)).
  { unfold cube_box, fin3. rewrite !sort2_fin. reflexivity. }
  rewrite EB in H. clear EB.
  assert (A : forall a b o d, ends (cube_axis_hits (Fin (Rmin a b), Fin (Rmax a b)) o d) t -> o + t * d = a \/ o + t * d = b).
  { intros a b o d K. unfold cube_axis_hits in K. apply ends_sort2 in K.
    destruct (isclose d 0) eqn:E.
    - simpl negb in K. cbv iota in K. destruct (_ && _)%bool; destruct K as [K|K]; discriminate.
    - pose proof (isclose_false_neq _ E). simpl negb in K. cbv iota in K. unfold b2r in K. rewrite Rplus_0_r in K.
      cbn [xopp xsub xadd] in K. rewrite !xdiv_fin in K by auto.
      unfold Rmin, Rmax in K. destruct (Rle_dec a b); destruct K as [K|K]; cbn [fst snd] in K; injection K as <-;
      [left|right|right|left]; field; auto. }
  unfold cube_hits, fin_box in H. cbn [spanx spany spanz] in H. unfold ray_at; cbn [vx vy vz].
  pose proof (A x0 x1 (vx (origin r)) (vx (direction r))) as A1.
  pose proof (A y0 y1 (vy (origin r)) (vy (direction r))) as A2.
  pose proof (A z0 z1 (vz (origin r)) (vz (direction r))) as A3.
  destruct (cube_axis_hits (Fin (Rmin x0 x1), Fin (Rmax x0 x1)) _ _) as [a0 a1].
  destruct (cube_axis_hits (Fin (Rmin y0 y1), Fin (Rmax y0 y1)) _ _) as [b0 b1].
  destruct (cube_axis_hits (Fin (Rmin z0 z1), Fin (Rmax z0 z1)) _ _) as [d0 d1].
  assert (XM : forall u v, xmax u v = Fin t -> u = Fin t \/ v = Fin t).
  { intros [] []; simpl; intros; try discriminate; auto; destruct (rleb _ _); auto. }
  assert (Xm : forall u v, xmin u v = Fin t -> u = Fin t \/ v = Fin t).
  { intros [] []; simpl; intros; try discriminate; auto; destruct (rleb _ _); auto. }
  unfold ends in *. cbn [fst snd] in *.
  destruct (xltb _ _); cbn [fst snd] in H; destruct H as [H|H]; try discriminate.
  - apply XM in H. destruct H as [H|H]; [apply XM in H; destruct H as [H|H]|]; auto.
  - apply Xm in H. destruct H as [H|H]; [apply Xm in H; destruct H as [H|H]|]; auto.
Qed.

Lemma cube_normal_axis_hit : forall a b x, x = a \/ x = b -> cube_normal_axis (Rmin a b) (Rmax a b) x <> 0.
Proof.
  intros a b x H. unfold cube_normal_axis. destruct (isclose x (Rmax a b)) eqn:E1; [lra|].
  destruct (isclose x (Rmin a b)) eqn:E2; [lra|]. exfalso.
  unfold Rmin, Rmax in *. destruct (Rle_dec a b); destruct H as [->| ->]; rewrite isclose_refl in *; discriminate.
Qed.

Lemma prim_normal_exists : forall p r t, prim_ok p -> capped p -> ends (prim_hits p r) t ->
  exists n, prim_normal p (ray_at r t) = Some n /\ vw n = 0 /\ vdot n n = 1.
Proof.
  intros p r t OK CA H. destruct p as [rad|rad lo hi cap|c0 c1|f hh|w l]; cbn [prim_hits prim_normal] in *.
  - unfold sphere_normal. apply vnormalize_ok; [|reflexivity].
    assert (M : moving r).
    { intros (X & Y & Z). unfold sphere_hits in H. rewrite X, Y, Z in H.
      replace (0 * 0 + 0 * 0 + 0 * 0) with 0 in H by ring. rewrite Rmult_0_r in H.
      destruct (rleb 0 _) in H; [|destruct H; discriminate].
      rewrite Rmult_0_r in H. unfold xdiv in H. destruct (Req_EM_T 0 0) in H; [|contradiction].
      unfold inf_sign in H. destruct H as [H|H]; cbn [fst snd] in H;
        destruct (Rlt_dec _ _) in H; try discriminate; destruct (Rlt_dec _ _) in H; discriminate. }
    pose proof (sphere_hits_surface rad r t M H) as S. unfold on_surface in S. intros E.
    unfold vset_w in E. injection E as E1 E2 E3. unfold ray_at in S; cbn [vx vy vz] in S. rewrite E1, E2, E3 in S.
    cbn in OK. apply Rsqr_pos_lt in OK. unfold Rsqr in OK. lra.
  - cbn in OK, CA. subst cap. unfold cylinder_normal. unfold cylinder_hits in H. apply ends_clip in H.
    destruct (isclose (vz (ray_at r t)) hi) eqn:Eh; [apply vnormalize_ok; [intro Ev; injection Ev; intros; lra|reflexivity]|].
    destruct (isclose (vz (ray_at r t)) lo) eqn:El; [apply vnormalize_ok; [intro Ev; injection Ev; intros; lra|reflexivity]|].
    destruct H as [H|H].
    + apply ends_sort2, binomial_ends_ge in H.
      2:{ pose proof (Rle_0_sqr (vx (direction r))). pose proof (Rle_0_sqr (vy (direction r))). unfold Rsqr in *. lra. }
      apply vnormalize_ok; [|reflexivity]. intros Ev. unfold ray_at in Ev; cbn [vx vy] in Ev.
      injection Ev as E1 E2.
      assert (K : (vx (origin r) + t * vx (direction r)) * (vx (origin r) + t * vx (direction r)) +
                  (vy (origin r) + t * vy (direction r)) * (vy (origin r) + t * vy (direction r)) - rad * rad >= 0) by lra.
      rewrite E1, E2 in K. destruct OK as [OK _]. assert (0 < rad * rad) by (apply Rsqr_pos_lt in OK; exact OK). lra.
    + exfalso. destruct (z_clip_ends _ _ _ _ _ H) as [E|E]; unfold ray_at in *; cbn [vz] in *; rewrite E, isclose_refl in *; discriminate.
  - apply cube_ends in H. unfold cube_normal. destruct c0 as [[x0 y0] z0], c1 as [[x1 y1] z1].
    apply vnormalize_ok; [|reflexivity]. intros Ev. injection Ev as E1 E2 E3.
    destruct H as [H|[H|H]]; apply cube_normal_axis_hit in H; auto.
  - unfold paraboloid_normal. apply vnormalize_ok.
    + cbn in OK. destruct (isclose _ _); intro Ev; injection Ev; intros; lra.
    + destruct (isclose _ _); reflexivity.
  - exists plane_normal. unfold plane_normal, vdot; cbn [vx vy vz vw]. repeat split; lra.
Qed.

Lemma surf_hits_ends : forall s r t, In (Fin t) (surf_hits s r) -> ends (prim_hits (s_prim s) (ray_map (s_obj s) r)) t.
Proof.
  intros s r t H. unfold surf_hits in H. apply ends_sort2.
  destruct (sort2 (prim_hits (s_prim s) (ray_map (s_obj s) r))) as [a b]. unfold ends; cbn [fst snd].
  destruct H as [H|[H|[]]]; auto.
Qed.

Lemma forward_origin : forall t c, origin (c_ray (forward t c)) = ray_at (c_ray c) t.
Proof. intros. unfold forward, ray_at; cbn. unfold vadd, vscale. reflexivity. Qed.

(** the world normal exists at every hit and is a unit vector *)
Lemma hit_normal : forall P s c t, part_ok P s -> In (Fin t) (surf_hits s (c_ray c)) ->
  exists n, world_normal s (origin (c_ray (forward t c))) = Some n /\ unit n /\ vw n = 0.
Proof.
  intros P s c t (PO & A & I & CA & NS & _) H. apply surf_hits_ends in H.
  destruct (prim_normal_exists _ _ _ PO CA H) as (n & E & W & U).
  rewrite forward_origin.
  assert (L : ray_at (ray_map (s_obj s) (c_ray c)) t = mapply (s_obj s) (ray_at (c_ray c) t)).
  { unfold ray_at, ray_map, mapply, vdot; cbn [origin direction vx vy vz vw]. f_equal; ring. }
  rewrite L in E. destruct (world_normal_spec s _ n A I NS E W U) as (m & M & UM & WM & _). eauto.
Qed.

(** ** The materials keep rays in order *)
Lemma refract_some : forall v n n1 n2 ng, unit v -> unit n -> 0 < n1 -> 0 < n2 -> 0 < ng ->
  exists d m, refract v n n1 n2 ng = Some (d, m) /\ unit d /\ (m = n1 \/ m = next_index v n n2 ng).
Proof.
  intros v n n1 n2 ng V N A B C. unfold unit in V.
  destruct (Rlt_le_dec (n1 * vnorm (tangential (hat v) n)) (next_index v n n2 ng)) as [L|L].
  - destruct (refract_snell v n n1 n2 ng) as (d & R & U & _); auto; [rewrite V; lra|]. eauto 6.
  - destruct (refract_tir v n n1 n2 ng) as (d & R & U & _); auto; [rewrite V; lra|]. eauto 6.
Qed.

Lemma vnormalize_w : forall v u, vnormalize v = Some u -> vw v = 0 -> vw u = 0.
Proof.
  intros v u H W. unfold vnormalize in H. destruct (Req_EM_T _ 0); [discriminate|]. injection H as <-.
  unfold vscale; cbn [vw]. rewrite W. ring.
Qed.
Lemma refract_w : forall v n n1 n2 ng d m, refract v n n1 n2 ng = Some (d, m) -> vw v = 0 -> vw n = 0 -> vw d = 0.
Proof.
  intros v n n1 n2 ng d m H V N. unfold refract in H.
  destruct (vnormalize v) as [u|] eqn:EU; [|discriminate]. apply vnormalize_w in EU; auto.
  cbv zeta in H. destruct (Req_EM_T _ 0) in H; [discriminate|].
  destruct (vnormalize _) as [w|] eqn:EW in H; [|discriminate]. injection H as <- _. apply vnormalize_w in EW; auto.
  destruct (rltb 0 (vdot u n)); destruct (rltb 0 _);
    unfold vopp, vadd, vscale; cbn [vw]; rewrite EU, N; ring.
Qed.

Lemma material_ok : forall (P : R -> Prop) s c t, part_ok P s -> In (Fin t) (surf_hits s (c_ray c)) ->
  ray_ok c -> unit (direction (c_ray c)) -> P (c_wl c) ->
  exists c', material_trace s (forward t c) = Some c' /\ ray_ok c' /\ c_wl c' = c_wl c /\
    origin (c_ray c') = ray_at (c_ray c) t.
Proof.
  intros P s c t OK H (O1 & D0 & _ & I0) U WL.
  destruct (hit_normal P s c t OK H) as (n & N & UN & WN).
  assert (FO : vw (origin (c_ray (forward t c))) = 1).
  { rewrite forward_origin. unfold ray_at; cbn [vw]. rewrite O1, D0. ring. }
  destruct OK as (_ & _ & _ & _ & _ & MO). unfold material_trace. rewrite N.
  destruct (s_mat s) as [| |f|]; [| | |contradiction].
  - eexists. split; [reflexivity|]. repeat split; cbn; auto.
  - eexists. split; [reflexivity|]. unfold ray_ok, with_direction; cbn [c_ray origin direction with_ray c_idx c_wl forward].
    repeat split; auto.
    + unfold reflect, vsub, vopp, vadd, vscale; cbn [vw]. cbn in D0. rewrite D0, WN. ring.
    + left. unfold unit in *. rewrite reflect_length; auto.
  - destruct (MO _ WL) as (n2 & E2 & P2). cbn [c_wl forward with_ray]. rewrite E2.
    destruct (refract_some (direction (c_ray (forward t c))) n (c_idx c) n2 world_index) as (d & m & R & UD & IM); auto.
    { unfold world_index; lra. }
    cbn [c_idx forward with_ray]. rewrite R. eexists. split; [reflexivity|].
    unfold ray_ok; cbn [c_ray origin direction with_idx with_direction with_ray c_idx c_wl forward].
    split; [|auto]. split; [exact FO|]. split; [eapply refract_w; eauto|]. split; auto.
    destruct IM as [-> | ->]; auto. unfold next_index. destruct (Rlt_dec _ _); auto. unfold world_index; lra.
Qed.

(** ** Well-formed scenes *)
Section WellFormed.
  Variable asort : list xr -> list nat.
  Hypothesis AS : argsort_ok asort.
  Variable comps : list shape.
  Notation surfaces := (flat_map surface_ids comps).
  Hypothesis ND : NoDup (map s_id surfaces).
  Notation lut := (table surfaces).
  Variable P : R -> Prop.
  Hypothesis PARTS : forall s, In s surfaces -> part_ok P s.

  Lemma zero4_norm : vnorm zero4 = 0.
  Proof. unfold vnorm, zero4, vdot; cbn [vx vy vz vw]. replace (0*0+0*0+0*0+0*0) with 0 by ring. apply sqrt_0. Qed.
  Lemma live_unit : forall c, ray_ok c -> ~ stopped c -> unit (direction (c_ray c)).
  Proof.
    intros c (_ & _ & [U|Z] & _) S; auto. exfalso. apply S. unfold stopped. rewrite Z, zero4_norm.
    pose proof atol_pos. lra.
  Qed.

  Definition good c := ray_ok c /\ P (c_wl c).

  Lemma step_good : forall c, good c -> step_ray asort comps lut c <> SNan /\
    forall w n, step_ray asort comps lut c = SGo w n -> good n.
  Proof.
    intros c (OK & WL).
    assert (D : step_ray asort comps lut c = SStop \/ step_ray asort comps lut c <> SStop).
    { destruct (step_ray asort comps lut c); auto; right; discriminate. }
    destruct D as [D|D]; [rewrite D; split; [discriminate|intros; discriminate]|].
    destruct (step_hit asort AS comps ND c D) as (NS & t & sid & s & PR & F & I & E & H & CE).
    pose proof (live_unit c OK NS) as U.
    destruct (material_ok P s c t (PARTS s I) H OK U WL) as (c' & M & OK' & W' & _).
    rewrite M in CE.
    assert (SR : exists w, step_ray asort comps lut c = SGo w c').
    { unfold step_ray in *. destruct (dead c (propagate asort comps c)); [congruence|]. rewrite CE.
      unfold make_row. destruct OK as (_ & W0 & _). unfold unit in U.
      assert (T : trim (direction (c_ray c)) = direction (c_ray c)).
      { unfold trim, vset_w. destruct (direction (c_ray c)) as [x y z w]. cbn in W0. subst w. reflexivity. }
      rewrite T. destruct (vnormalize_hat (direction (c_ray c))) as [V _]; [lra|]. rewrite V. eauto. }
    destruct SR as (w & SR). rewrite SR. split; [discriminate|]. intros w0 n0 G. injection G as _ <-. split; auto. congruence.
  Qed.

  Lemma good_forward : forall c, good c -> good (forward ray_offset_value c).
  Proof.
    intros c ((A & B & C & D) & W). split; auto. unfold ray_ok, forward; cbn [c_ray with_ray origin direction c_idx].
    repeat split; auto. unfold vadd, vscale; cbn [vw]. rewrite A, B. ring.
  Qed.

  Lemma interact_good : forall limit gen cs, Forall good cs ->
    match interact lut limit gen cs (map (propagate asort comps) cs) with
    | IAllDead => True
    | INext _ rays g fin => Forall good rays /\ g = S gen /\ fin = Z.eqb (Z.of_nat (S gen)) limit
    | _ => False
    end.
  Proof.
    intros limit gen cs G. pose proof (interact_cases asort comps lut limit gen cs) as IC.
    destruct (interact lut limit gen cs (map (propagate asort comps) cs)) as [|rows rays g fin| |].
    - exact I.
    - destruct IC as (_ & _ & _ & -> & FI & RA). split; auto. rewrite RA. clear RA FI.
      assert (Q : Forall good (flat_map (step_next asort comps lut gen) cs)).
      { rewrite Forall_forall in *. intros x X. apply in_flat_map in X. destruct X as (c & C & X).
        unfold step_next in X. destruct (step_ray asort comps lut c) as [| |w n] eqn:SR; try contradiction.
        destruct X as [<-|[]]. destruct (step_good c (G c C)) as [_ K]. apply K in SR.
        destruct SR as (SR & W). split; auto. }
      destruct fin; auto. rewrite Forall_forall in *. intros x X. apply in_map_iff in X.
      destruct X as (c & <- & C). apply good_forward; auto.
    - destruct IC as (e & _ & IE & M & _). unfold table in IE. apply in_map_iff in IE.
      destruct IE as (s & <- & IS). cbn [snd] in M. destruct (PARTS s IS) as (_ & _ & _ & _ & _ & O). rewrite M in O. exact O.
    - destruct IC as (c & C & SN). destruct (step_good c) as [K _]; auto. rewrite Forall_forall in G; auto.
  Qed.
End WellFormed.

Lemma run_succeeds : forall asort, argsort_ok asort -> forall h gen comps (P : R -> Prop),
  NoDup (map s_id (flat_map surface_ids comps)) ->
  (forall s, In s (flat_map surface_ids comps) -> part_ok P s) ->
  forall m t fuel, t_state t = PROPAGATE -> (Z.of_nat (t_gen t + m) = t_limit t)%Z -> (0 < m)%nat ->
  (2 * m + 1 <= fuel)%nat ->
  collect (map (shape_of h) (t_comps t)) = Some comps ->
  collect (map (entry_of h) (t_lut t)) = Some (table (flat_map surface_ids comps)) ->
  Forall (good P) (t_rays t) ->
  exists t', run_states asort h gen fuel t = TOk t'.
Proof.
  intros asort AS h gen comps P ND PARTS. induction m as [|m IH]; intros t fuel ST G M F C L GD; [lia|].
  destruct fuel as [|[|[|fuel]]]; try lia. rewrite run_S, ST. unfold st_propagate. rewrite C. cbn [tbind].
  rewrite run_S. cbn [t_state set_state set_hits]. unfold st_interact. cbn [t_lut set_state set_hits]. rewrite L.
  cbn [t_limit t_gen t_rays t_hits t_frame set_hits set_state].
  pose proof (interact_good asort AS comps ND P PARTS (t_limit t) (t_gen t) (t_rays t) GD) as IG.
  destruct (interact _ (t_limit t) (t_gen t) (t_rays t) (map (propagate asort comps) (t_rays t)))
    as [|rows rays g fin| |]; cbn [tbind]; try contradiction.
  - rewrite run_S. cbn [t_state set_state]. unfold st_finish. cbn [tbind]. rewrite run_idle; [eauto|reflexivity].
  - destruct IG as (GR & -> & HF). destruct fin.
    + rewrite run_S. cbn [t_state set_state]. unfold st_finish. cbn [tbind]. rewrite run_idle; [eauto|reflexivity].
    + symmetry in HF. apply Z.eqb_neq in HF. apply IH; try assumption; try reflexivity.
      * cbn. rewrite <- G. f_equal. lia.
      * destruct m; [|lia]. elim HF. rewrite <- G. f_equal. lia.
      * lia.
Qed.

(** A trace of a well-formed scene returns; the rays stay points with unit directions. *)
Theorem trace_succeeds : forall asort, argsort_ok asort ->
  forall h gen t fuel comps, (1 <= t_limit t)%Z -> (2 * Z.to_nat (t_limit t) + 2 <= fuel)%nat ->
  t_sources t <> [] -> table_current h t -> NoDup (map fst (t_lut t)) ->
  map (shape_of h) (t_comps t) = map Some comps ->
  (forall c, In c (source_rays gen t) -> ray_ok c) ->
  (forall s, In s (flat_map surface_ids comps) ->
     part_ok (fun wl => exists c, In c (source_rays gen t) /\ c_wl c = wl) s) ->
  exists t', trace asort h gen fuel t = TOk t'.
Proof.
  intros asort AS h gen t fuel comps LI FU SO (luts & CL & TL) ND SH RO PO.
  assert (C : collect (map (shape_of h) (t_comps t)) = Some comps).
  { rewrite SH. apply collect_map_some. }
  destruct (table_entries _ _ _ _ C CL) as (E & KE & POS). rewrite TL, KE in ND.
  unfold trace. destruct fuel as [|fuel]; [lia|]. rewrite run_S. cbn [t_state set_state]. unfold st_initialize.
  cbn [t_sources reset set_state set_gen set_frame set_complete t_n].
  destruct (t_sources t) as [|s ss] eqn:ES; [congruence|]. cbn [tbind].
  apply (run_succeeds asort AS h gen comps _ ND PO (Z.to_nat (t_limit t)));
    cbn [t_state t_gen t_limit t_comps t_lut t_rays set_state set_rays set_gen set_frame set_complete reset]; auto.
  - simpl. apply Z2Nat.id. lia.
  - lia.
  - lia.
  - rewrite TL. exact E.
  - apply Forall_forall. intros c IC. apply renumber_in in IC. destruct IC as (i & c0 & N & ->).
    assert (I0 : In c0 (source_rays gen t)).
    { unfold source_rays. rewrite ES. eapply nth_error_In; eauto. }
    split; [apply RO in I0; exact I0|]. cbn. eauto.
Qed.
