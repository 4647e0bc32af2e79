(** * TrainFacts: the first hit among many components, and a lens anywhere on the axis *)
From Coq Require Import Reals Lra Lia List Bool ZArith Permutation Psatz.
Import ListNotations.
From Verif Require Import XR XRFacts Arr Lin LinFacts Ops OpsFacts SpecOptics Prim Csg Surf SpecGeom SpecTree CsgProps SpanFacts BoxFacts TreeFacts
  World SpecWorld WorldFacts3 BuildFacts Tracer SpecTrace Components SpecComponents ComponentFacts ComponentFacts2 ComponentOptics SpecSymmetry SymmetryComponents Chords Paraxial AxisRays
  LensAxis LensAxis2 LensKinds SpecUtils SpecGauss SpecTrain GaussProps.
Open Scope R_scope.

(** ** The first hit *)
Section First.
  Variable asort : list xr -> list nat.
  (** [s] lists nothing between the start of the ray and the distance [t] *)
  Definition clear_of (s : shape) (r : ray) (t : R) : Prop :=
    forall k t', nth_error (fst (shape_intersect asort s r)) k = Some (Fin t') -> t' <= 0 \/ t < t'.
  Lemma first_of : forall comps s others r t sid k, Permutation comps (s :: others) ->
    (forall s', In s' others -> clear_of s' r t) ->
    nth_error (fst (shape_intersect asort s r)) k = Some (Fin t) -> nth_error (snd (shape_intersect asort s r)) k = Some sid -> 0 < t ->
    (forall k' t', nth_error (fst (shape_intersect asort s r)) k' = Some (Fin t') -> 0 < t' -> t < t' \/ (t = t' /\ (k <= k')%nat)) ->
    first_hit asort comps r t sid.
  Proof.
    intros comps s others r t sid k PE CL H1 H2 T M.
    assert (exists c1 c2, comps = c1 ++ s :: c2) as (c1 & c2 & ->) by (apply in_split; apply (Permutation_in _ (Permutation_sym PE)); left; reflexivity).
    assert (PO : Permutation (c1 ++ c2) others) by (apply Permutation_cons_inv with (a := s); rewrite <- PE; apply Permutation_middle).
    exists (length c1), k. split; [exists s; rewrite nth_error_app2, Nat.sub_diag by lia; auto|].
    intros i' k' t' sid' (s' & N & F1 & F2 & T').
    assert (OTH : i' <> length c1 -> In s' others).
    { intro NI. apply (Permutation_in _ PO). destruct (Nat.lt_ge_cases i' (length c1)) as [L|L].
      - rewrite nth_error_app1 in N by exact L. apply in_or_app. left. exact (nth_error_In _ _ N).
      - rewrite nth_error_app2 in N by exact L. destruct (i' - length c1)%nat as [|j] eqn:E; [lia|]. cbn [nth_error] in N. apply in_or_app. right. exact (nth_error_In _ _ N). }
    destruct (Nat.eq_dec i' (length c1)) as [->|NI].
    - rewrite nth_error_app2, Nat.sub_diag in N by lia. cbn [nth_error] in N. injection N as <-. destruct (M k' t' F1 T') as [L|(-> & L)]; auto.
    - destruct (CL s' (OTH NI) k' t' F1) as [L|L]; [lra|auto].
  Qed.
  Lemma chord_times : forall s r u i v j k t, chord asort s r u i v j -> nth_error (fst (shape_intersect asort s r)) k = Some (Fin t) ->
    (k = 0%nat /\ t = u) \/ (k = 1%nat /\ t = v).
  Proof.
    intros s r u i v j k t (n & rest & E & L & O & UV) H. rewrite E in H. cbn [fst] in H. destruct k as [|[|k]]; cbn [nth_error] in H.
    - injection H as ->. auto.
    - injection H as ->. auto.
    - exfalso. eapply nth_inf; eauto.
  Qed.
  Lemma clear_chord : forall s r u i v j t, chord asort s r u i v j -> v <= 0 \/ t < u -> clear_of s r t.
  Proof.
    intros s r u i v j t C H k t' N. pose proof C as (n & rest & E & L & O & UV). destruct (chord_times _ _ _ _ _ _ _ _ C N) as [(_ & ->)|(_ & ->)]; lra.
  Qed.
  Lemma clear_plane : forall g bx r w t, surf_hits g r = [Fin w; Fin w] -> t < w -> clear_of (Leaf g bx) r t.
  Proof.
    intros g bx r w t H L k t' N. cbn [shape_intersect fst] in N. rewrite H in N. destruct k as [|[|k]]; cbn [nth_error] in N; [injection N as <-; auto..|destruct k; discriminate].
  Qed.
  Lemma enter_first : forall comps s others r u i v j, Permutation comps (s :: others) -> (forall s', In s' others -> clear_of s' r u) ->
    chord asort s r u i v j -> 0 < u -> first_hit asort comps r u i.
  Proof.
    intros comps s others r u i v j PE CL C U. pose proof C as (n & rest & E & L & O & UV).
    apply (first_of comps s others r u i 0%nat PE CL); [rewrite E; reflexivity..|exact U|].
    intros k' t' N _. destruct (chord_times _ _ _ _ _ _ _ _ C N) as [(-> & ->)|(-> & ->)]; auto.
  Qed.
  Lemma leave_first : forall comps s others r u i v j, Permutation comps (s :: others) -> (forall s', In s' others -> clear_of s' r v) ->
    chord asort s r u i v j -> u <= 0 -> 0 < v -> first_hit asort comps r v j.
  Proof.
    intros comps s others r u i v j PE CL C U V. pose proof C as (n & rest & E & L & O & UV).
    apply (first_of comps s others r v j 1%nat PE CL); [rewrite E; reflexivity..|exact V|].
    intros k' t' N T. destruct (chord_times _ _ _ _ _ _ _ _ C N) as [(-> & ->)|(-> & ->)]; [lra|auto].
  Qed.
  Lemma screen_first : forall comps g bx others r w, Permutation comps (Leaf g bx :: others) -> (forall s', In s' others -> clear_of s' r w) ->
    surf_hits g r = [Fin w; Fin w] -> 0 < w -> first_hit asort comps r w (s_id g).
  Proof.
    intros comps g bx others r w PE CL H W. apply (first_of comps (Leaf g bx) others r w (s_id g) 0%nat PE CL); cbn [shape_intersect fst snd]; rewrite ?H; auto.
    intros k' t' N T. destruct k' as [|[|k']]; cbn [nth_error] in N; [injection N as <-; auto with arith..|destruct k'; discriminate].
  Qed.
End First.

(** ** Legs of a history in any scene *)
Section Legs.
  Variable asort : list xr -> list nat.
  Variables ey ez : R.
  Hypothesis EU : ey * ey + ez * ez = 1.
  Lemma refracted_leg : forall comps s limit index_at g x y dx dy int wl idx id t i n n2 ex ey' n3 rows,
    (g = O \/ Z.of_nat g <> limit) -> dx * dx + dy * dy = 1 -> In s comps ->
    first_hit asort comps (mray ey ez x y dx dy) t i -> acts (Refractor index_at) s i (mpt ey ez (x + t * dx) (y + t * dy)) n ->
    index_at wl = Fin n2 -> refract (mdir ey ez dx dy) n idx n2 1 = Some (mdir ey ez ex ey', n3) ->
    history asort comps (flat_map surface_ids comps) limit (S g)
      (Col (mray ey ez (x + t * dx + ray_offset_value * ex) (y + t * dy + ray_offset_value * ey') ex ey') (S g) int wl n3 id) rows ->
    history asort comps (flat_map surface_ids comps) limit g (Col (mray ey ez x y dx dy) g int wl idx id)
      (Row g int wl idx id i (trim (mpt ey ez x y)) (trim (mpt ey ez (x + t * dx) (y + t * dy))) (hat (trim (mdir ey ez dx dy))) :: rows).
  Proof.
    intros comps s limit index_at g x y dx dy int wl idx id t i n n2 ex ey' n3 rows L U IC F (f & IN & ID & MA & WN) IX RF H.
    set (c := Col (mray ey ez x y dx dy) g int wl idx id).
    set (c' := Col (mray ey ez (x + t * dx) (y + t * dy) ex ey') g int wl n3 id).
    change (history asort comps (flat_map surface_ids comps) limit g c (Row (c_gen c) (c_int c) (c_wl c) (c_idx c) (c_id c) i (trim (origin (c_ray c))) (trim (origin (c_ray c'))) (hat (trim (direction (c_ray c)))) :: rows)).
    apply History_hit with (t := t) (s := f); auto.
    - apply unit_going; assumption.
    - apply in_flat_map. eauto.
    - unfold c. rewrite forward_mray. unfold material_trace. rewrite MA. cbn [c_ray mray origin direction c_wl c_idx]. rewrite WN, IX. unfold world_index. rewrite RF. reflexivity.
    - unfold c', with_gen. cbn [c_ray c_int c_wl c_idx c_id]. rewrite forward_mray. exact H.
  Qed.
  Lemma absorbed_leg : forall comps f bx limit g x y dx dy int wl idx id t,
    (g = O \/ Z.of_nat g <> limit) -> dx * dx + dy * dy = 1 -> In (Leaf f bx) comps ->
    first_hit asort comps (mray ey ez x y dx dy) t (s_id f) -> s_mat f = Absorber ->
    history asort comps (flat_map surface_ids comps) limit g (Col (mray ey ez x y dx dy) g int wl idx id)
      [Row g int wl idx id (s_id f) (trim (mpt ey ez x y)) (trim (mpt ey ez (x + t * dx) (y + t * dy))) (hat (trim (mdir ey ez dx dy)))].
  Proof.
    intros comps f bx limit g x y dx dy int wl idx id t L U IC F MA.
    set (c := Col (mray ey ez x y dx dy) g int wl idx id).
    set (c' := Col (Ray (mpt ey ez (x + t * dx) (y + t * dy)) zero4) g int wl idx id).
    change (history asort comps (flat_map surface_ids comps) limit g c [Row (c_gen c) (c_int c) (c_wl c) (c_idx c) (c_id c) (s_id f) (trim (origin (c_ray c))) (trim (origin (c_ray c'))) (hat (trim (direction (c_ray c))))]).
    apply History_hit with (t := t) (s := f); auto.
    - apply unit_going; assumption.
    - apply in_flat_map. exists (Leaf f bx). split; [exact IC|left; reflexivity].
    - unfold c. rewrite forward_mray. unfold material_trace. rewrite MA. reflexivity.
    - apply History_stopped. left. unfold stopped, c', forward, with_gen, with_ray. cbn [c_ray direction]. unfold vnorm, vdot, zero4; cbn [vx vy vz vw].
      replace (0 * 0 + 0 * 0 + 0 * 0 + 0 * 0) with 0 by ring. rewrite sqrt_0. unfold atol. lra.
  Qed.
End Legs.

(** ** A lens on the axis *)
Definition placed (l : lens) (s : shape) : Prop :=
  lens_ok l /\ tree_ok s /\ boxes_current s /\
  exists p,
    match l_by l with
    | ThickLens r1 r2 t =>
        create_aperture (l_ap l) (t + front_depth r1 (reach (l_ap l)) + back_depth r2 (reach (l_ap l))) = Some p /\
        erase s = placed_erased r1 r2 (Refractor (l_index l)) p (l_at l - t / 2) (l_at l + t / 2)
          (l_at l + (back_depth r2 (reach (l_ap l)) - front_depth r1 (reach (l_ap l))) / 2)
    | BiconvexLens r1 r2 t => create_aperture (l_ap l) t = Some p /\ erase s = biconvex_erased (Refractor (l_index l)) r1 r2 t (l_at l) p
    | PlanoConvexLens r t => create_aperture (l_ap l) t = Some p /\ erase s = plano_erased (Refractor (l_index l)) r t (l_at l) p
    end.
Lemma made_built : forall asort o s P, built asort o P -> made asort o s -> P s.
Proof.
  intros asort o s P (prog & l & E & B) (prog' & l' & h & h' & E' & N & R & Sh). rewrite E in E'. injection E' as <- <-.
  destruct (B h N) as (h1 & s1 & R1 & S1 & _ & _ & H). rewrite R in R1. injection R1 as <-. rewrite Sh in S1. injection S1 as <-. exact H.
Qed.
Lemma bi_thin : forall r1 r2 t, (if rltb r1 r2 then t else t - (r1 - r2)) <= t.
Proof. intros r1 r2 t. destruct (rltb r1 r2) eqn:E; [lra|]. apply rltb_false in E. lra. Qed.
Lemma made_placed : forall asort l s, argsort_ok asort -> lens_ok l -> made asort (lens_call l) s -> placed l s.
Proof.
  intros asort [by_ ap ix q] s AO OK M. pose proof OK as (A & CL & FIT). unfold lens_call, placed in *. cbn [l_by l_ap l_index l_at] in *. split; [exact OK|].
  destruct by_ as [r1 r2 t|r1 r2 t|r t]; cbn [l_by l_ap l_t] in *.
  - pose proof FIT as (R1 & R2 & T & _). destruct (placed_lens_erased asort r1 r2 t ap (Refractor ix) q AO A ltac:(lra) R1 R2) as (p & EP & B).
    destruct (made_built _ _ _ _ B M) as (TO & BC & ER). split; [exact TO|]. split; [exact BC|]. exists p. auto.
  - destruct FIT as (R1 & R2 & T2 & T3 & T). pose proof (bi_thin r1 r2 t). unfold l_t in T; cbn [l_by] in T.
    destruct (biconvex_placed asort r1 r2 t ap (Refractor ix) q AO A ltac:(lra) R1 R2) as (p & EP & B).
    destruct (made_built _ _ _ _ B M) as (TO & BC & ER). split; [exact TO|]. split; [exact BC|]. exists p. auto.
  - destruct FIT as (R & T2 & T). destruct (plano_placed asort r t ap (Refractor ix) q AO A ltac:(lra) R) as (p & EP & B).
    destruct (made_built _ _ _ _ B M) as (TO & BC & ER). split; [exact TO|]. split; [exact BC|]. exists p. auto.
Qed.
Lemma lens_radii : forall l, lens_ok l -> l_r1 l <> NaN /\ l_r2 l <> NaN /\ (forall q, l_r1 l = Fin q -> q <> 0) /\ (forall q, l_r2 l = Fin q -> q <> 0) /\ ray_offset_value < l_t l.
Proof.
  intros [by_ ap ix at_] (_ & _ & FIT). unfold l_r1, l_r2, l_t in *. cbn [l_by l_ap] in *. destruct by_ as [r1 r2 t|r1 r2 t|r t].
  - destruct FIT as (R1 & R2 & T & _). repeat split; [destruct r1; [discriminate..|destruct R1]|destruct r2; [discriminate..|destruct R2]| | |unfold ray_offset_value; lra].
    + intros q ->. apply R1.
    + intros q ->. apply R2.
  - destruct FIT as (R1 & R2 & _ & _ & T). repeat split; [destruct (rltb r1 r2); discriminate|discriminate| | |unfold ray_offset_value; lra].
    + intros q. destruct (rltb r1 r2); intro E; [discriminate|injection E as <-; lra].
    + intros q E. injection E as <-. lra.
  - destruct FIT as (R1 & _ & T). repeat split; [discriminate|discriminate|discriminate| |unfold ray_offset_value; lra]. intros q E. injection E as <-. lra.
Qed.
Lemma lens_depth : forall l, back_of l = front_of l + l_t l.
Proof. intros [[r1 r2 t|r1 r2 t|r t] ap ix at_]; unfold back_of, front_of, l_t; cbn [l_by l_at]; try (destruct (rltb r1 r2)); field. Qed.
Lemma curv_curvature : forall r k, curvature r k -> curv r = k.
Proof. intros [r| | |] k C; cbn in *; [destruct C as (_ & ->); reflexivity|auto..|destruct C]. Qed.
Section Placed.
  Variable asort : list xr -> list nat.
  Hypothesis AS : argsort_ok asort.
  Variables ey ez : R.
  Hypothesis EU : ey * ey + ez * ez = 1.
  Variables X Y DX DY : R -> R.
  Variables x h u : R.
  Hypothesis P : paraxial X Y DX DY x h u.
  Definition Tf (l : lens) : R -> R := ftime X Y DX DY (l_r1 l) (front_of l).
  Definition Tb (l : lens) : R -> R := ftime X Y DX DY (l_r2 l) (back_of l).
  Lemma lens_met : forall l s, placed l s -> ev (fun y => spans_face asort ey ez (Refractor (l_index l)) X Y DX DY s y
    (Tf l y) (fnorm ey ez (-1) (l_r1 l) (front_of l) (pat X DX (Tf l y) y) (hat_ Y DY (Tf l y) y))
    (Tb l y) (fnorm ey ez 1 (l_r2 l) (back_of l) (pat X DX (Tb l y) y) (hat_ Y DY (Tb l y) y))).
  Proof.
    intros [[r1 r2 t|r1 r2 t|r t] ap ix q] s ((A & CL & FIT) & TO & BC & p & EP & ER).
    - exact (placed_faces asort AS ey ez EU (Refractor ix) X Y DX DY x h u P s q r1 r2 t ap p A CL FIT EP TO BC ER).
    - destruct FIT as (R1 & R2 & T2 & T3 & T). pose proof (lens_depth (Lens (BiconvexLens r1 r2 t) ap ix q)) as LD.
      apply (biconvex_faces asort AS ey ez EU (Refractor ix) X Y DX DY x h u P s q r1 r2 t ap p A CL R1 R2 T2 T3); auto.
      change (bi_front r1 r2 t q) with (front_of (Lens (BiconvexLens r1 r2 t) ap ix q)). change (q + t / 2) with (back_of (Lens (BiconvexLens r1 r2 t) ap ix q)). lra.
    - destruct FIT as (R1 & T2 & T). exact (plano_faces asort AS ey ez EU (Refractor ix) X Y DX DY x h u P s q r t ap p A CL R1 T2 T EP TO BC ER).
  Qed.
  Lemma lim_Tf : forall l, lens_ok l -> lim (Tf l) (front_of l - x).
  Proof. intros l OK. destruct (lens_radii l OK) as (A & _ & B & _). exact (lim_ftime _ _ _ _ _ _ _ P _ _ A B). Qed.
  Lemma lim_Tb : forall l, lens_ok l -> lim (Tb l) (back_of l - x).
  Proof. intros l OK. destruct (lens_radii l OK) as (_ & A & _ & B & _). exact (lim_ftime _ _ _ _ _ _ _ P _ _ A B). Qed.
  (** lenses that lie behind the start of the ray, or beyond the plane it reaches at [T] *)
  Lemma others_clear : forall (T : R -> R) q ps, lim T (q - x) ->
    (forall l s, In (l, s) ps -> placed l s /\ (back_of l < x \/ q < front_of l)) ->
    ev (fun y => forall s, In s (map snd ps) -> clear_of asort s (mray ey ez (X y) (Y y) (DX y) (DY y)) (T y)).
  Proof.
    intros T q ps LT. induction ps as [|[l s] ps IH]; intro H; [apply ev_all; intros y s []|].
    destruct (H l s (or_introl eq_refl)) as (PL & OR).
    assert (Q : ev (fun y => Tb l y <= 0 \/ T y < Tf l y)).
    { destruct OR as [L|L].
      - eapply ev_impl; [|apply (lim_lt _ _ 0 (lim_Tb l (proj1 PL))); lra]. cbv beta. intros; lra.
      - eapply ev_impl; [|apply (lim_lt2 _ _ _ _ LT (lim_Tf l (proj1 PL))); lra]. cbv beta. intros; lra. }
    eapply ev_impl; [|exact (ev_and _ _ (lens_met l s PL) (ev_and _ _ Q (IH (fun l s I => H l s (or_intror I)))))].
    cbv beta. intros y _ ((i & j & C & _) & O & R) s' [<-|I]; [|exact (R s' I)]. eapply clear_chord; [exact C|exact O].
  Qed.
End Placed.
