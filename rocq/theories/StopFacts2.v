(** * StopFacts2: what baffles and aperture stops do to rays *)
From Coq Require Import Reals Lra Lia List Bool ZArith Psatz.
Import ListNotations.
From Verif Require Import XR XRFacts Arr Lin LinFacts Prim PrimFacts2 Csg Surf SpecGeom SpecTree TreeFacts BoxFacts SurfFacts CsgProps SpecSeen SeenFacts World SpecWorld
  WorldFacts3 WorldFacts5 WorldProps Tracer Components SpecComponents BuildFacts ComponentFacts ComponentFacts2 ComponentFacts3 ComponentFacts4 ComponentOptics SpecStop StopFacts.
Open Scope R_scope.

Lemma clear_opp : forall d, clear d -> clear (- d).
Proof. intros d [->|H]; [left; ring|right; rewrite Rabs_Ropp; exact H]. Qed.
Lemma erase_leaf_any : forall s p m w k, erase s = TLeaf p m w k -> tree_ok s ->
  exists f b, s = Leaf f b /\ s_prim f = p /\ s_mat f = m /\ s_world f = w /\ surf_ok f.
Proof.
  intros [f b|i op b l r] p m w k E T; simpl in E; [|discriminate]. injection E as E1 E2 E3 E4. exists f, b. auto 10.
Qed.

(** ** A plane that faces along x *)
Section Plane.
  Variables (f : surf) (a b : R) (O : mat).
  Hypotheses (A : 0 <= a) (B : 0 <= b).
  Hypothesis PF : s_prim f = PPlane a b.
  Hypothesis OF : s_obj f = O.
  Lemma plane_column : forall r, clear_ray (PPlane a b) (ray_map O r) ->
    (vz (direction (ray_map O r)) = 0 /\ surf_hits f r = [PInf; PInf]) \/
    (exists t, surf_hits f r = [Fin t; Fin t] /\ solid (PPlane a b) (ray_at (ray_map O r) t) /\
       forall q, solid (PPlane a b) (ray_at (ray_map O r) q) -> q = t) \/
    (surf_hits f r = [PInf; PInf] /\ forall q, ~ solid (PPlane a b) (ray_at (ray_map O r) q)).
  Proof.
    intros r C. rewrite surf_hits_alt, PF, OF. cbn [prim_hits]. destruct (plane_hits_exact a b (ray_map O r) A B C) as [H H0].
    destruct (Req_dec (vz (direction (ray_map O r))) 0) as [Z|Z].
    - left. rewrite (H0 Z). auto.
    - right. destruct (H Z) as [(t0 & t1 & E & L & Q)|[E Q]].
      + left. exists t0. assert (t1 = t0).
        { pose proof (proj2 (Q t0) ltac:(lra)) as (_ & _ & Z0). pose proof (proj2 (Q t1) ltac:(lra)) as (_ & _ & Z1).
          unfold ray_at in Z0, Z1. cbn [vz origin direction] in Z0, Z1. apply (Rmult_eq_reg_r (vz (direction (ray_map O r)))); [|exact Z].
          revert Z0 Z1. generalize (vz (origin (ray_map O r))) (vz (direction (ray_map O r))). intros; lra. }
        subst t1. rewrite E. split; [unfold sort2; cbn [fst snd]; destruct (xsle (Fin t0) (Fin t0)); reflexivity|].
        split; [apply Q; lra|]. intros q S. apply Q in S. lra.
      + right. rewrite E. split; [reflexivity|exact Q].
  Qed.
End Plane.

(** ** One column and the tracer *)
Lemma first_of : forall asort s c t i r ids, shape_intersect asort s (c_ray c) = (Fin t :: Fin t :: r, i :: ids) -> Forall (eq PInf) r ->
  (0 < t -> propagate asort [s] c = (Fin t, i)) /\ (t <= 0 -> let_by asort s c).
Proof.
  intros asort s c t i r ids E F. unfold let_by, propagate. cbn [fold_left]. unfold propagate_shape. rewrite E. cbn [map positive_or_inf]. split; intro T.
  - assert (P : positive_or_inf (Fin t) = Fin t) by (unfold positive_or_inf; cbn; rewrite (proj2 (rltb_true 0 t) T); reflexivity).
    assert (K : forall l b, Forall (eq PInf) l -> argmin_from (Fin t) 0 b l = 0%nat).
    { induction l as [|x l IH]; intros b0 G; [reflexivity|]. inversion G as [|? ? G1 G2]; subst. cbn [argmin_from]. cbn. apply IH. exact G2. }
    rewrite P. assert (G : Forall (eq PInf) (map positive_or_inf r)).
    { apply Forall_forall. intros x X. apply in_map_iff in X. destruct X as (y & <- & Y). rewrite Forall_forall in F. rewrite <- (F y Y). reflexivity. }
    assert (Z : argmin (Fin t :: Fin t :: map positive_or_inf r) = 0%nat).
    { unfold argmin. cbn [argmin_from]. assert (N : xltb (Fin t) (Fin t) = false) by (cbn; apply rltb_false; lra). rewrite ?N. apply K. exact G. }
    rewrite Z. reflexivity.
  - assert (P : positive_or_inf (Fin t) = PInf) by (unfold positive_or_inf; cbn; rewrite (proj2 (rltb_false 0 t)) by lra; reflexivity).
    rewrite P. change (PInf :: PInf :: map positive_or_inf r) with (map positive_or_inf (PInf :: PInf :: r)).
    rewrite all_inf by (constructor; [reflexivity|constructor; [reflexivity|exact F]]). reflexivity.
Qed.
Lemma stopped : forall asort s c q f, propagate asort [s] c = (Fin q, s_id f) -> In f (surface_ids s) -> s_mat f = Absorber ->
  vw (origin (c_ray c)) = 1 -> vw (direction (c_ray c)) = 0 -> absorbed_at asort s c q.
Proof.
  intros asort s c q f E I M O D. exists f. split; [exact E|]. split; [exact I|]. split; [exact M|].
  exists (with_direction zero4 (forward q c)). unfold material_trace. rewrite M. split; [reflexivity|]. split; [|reflexivity].
  reflexivity.
Qed.

(** ** Baffles *)
Lemma baffle_shape : forall asort a b, argsort_ok asort -> 0 <= a -> 0 <= b ->
  built asort (baffle (Pair a b)) (fun s => erase s = mv ry90 (TLeaf (PPlane a b) Absorber mid 1)).
Proof.
  intros asort a b AO A B. destruct rot_quarter as (_ & Y & _). unfold baffle.
  change [CSurface (PPlane a b) Absorber; CMotion 0 (RotY 90 Deg)] with ([CSurface (PPlane a b) Absorber] ++ [CMotion 0 (RotY 90 Deg)]).
  apply (built_moved asort _ _ _ [Some (mv ry90 (TLeaf (PPlane a b) Absorber mid 1))] (mv ry90 (TLeaf (PPlane a b) Absorber mid 1))); [exact AO| |reflexivity|reflexivity| |].
  - cbn [app track track_call prim_init nth_error]. rewrite Y. reflexivity.
  - apply prims_ok_mv; [reflexivity|]. split; [split; assumption|reflexivity].
  - intros s E _ _. exact E.
Qed.
Lemma baffle_absorbs : forall asort a b, argsort_ok asort -> 0 <= a -> 0 <= b ->
  built asort (baffle (Pair a b)) (fun s =>
    forall c x y z dx dy dz, c_ray c = Ray (pt x y z) (V4 dx dy dz 0) -> clear_vector (V4 dx dy dz 0) -> dx <> 0 ->
      (forall q, 0 < q -> x + q * dx = 0 -> in_aperture (Pair b a) (0, 0) (y + q * dy) (z + q * dz) -> absorbed_at asort s c q) /\
      ((forall q, 0 < q -> x + q * dx = 0 -> ~ in_aperture (Pair b a) (0, 0) (y + q * dy) (z + q * dz)) -> let_by asort s c)).
Proof.
  intros asort a b AS A B. eapply built_more; [|apply baffle_shape; auto]. intros s TO BC E c x y z dx dy dz R (Cx & Cy & Cz & _) Dn.
  cbn [vx vy vz] in *. destruct (erase_leaf_any _ _ _ _ _ E TO) as (f & bx & -> & PF & MF & WF & OK).
  assert (OF : s_obj f = ry_90).
  { destruct OK as (_ & _ & I). rewrite WF, mmul_mid_r in I. exact (ComponentOptics.inverse_unique _ _ _ I inv_ry90). }
  assert (LR : ray_map ry_90 (c_ray c) = Ray (pt (- z) y x) (V4 (- dz) dy dx 0)).
  { rewrite R. unfold ray_map, mapply, ry_90, vdot, pt. cbn [origin direction vx vy vz vw row0 row1 row2 row3]. f_equal; f_equal; ring. }
  assert (SO : forall q, solid (PPlane a b) (ray_at (ray_map ry_90 (c_ray c)) q) <-> x + q * dx = 0 /\ in_aperture (Pair b a) (0, 0) (y + q * dy) (z + q * dz)).
  { intro q. rewrite LR, ray_pt. unfold solid, pt. cbn [vx vy vz in_aperture fst snd]. rewrite !Rminus_0_r.
    replace (- z + q * - dz) with (- (z + q * dz)) by ring. rewrite Rabs_Ropp. tauto. }
  assert (CR : clear_ray (PPlane a b) (ray_map ry_90 (c_ray c))).
  { rewrite LR. unfold clear_ray. cbn [direction vx vy vz]. auto using clear_opp. }
  assert (RW : vw (origin (c_ray c)) = 1 /\ vw (direction (c_ray c)) = 0) by (rewrite R; split; reflexivity). destruct RW as [RW RW'].
  destruct (plane_column f a b ry_90 A B PF OF (c_ray c) CR) as [[Z _]|[(t & H & S & U)|[H N]]].
  - rewrite LR in Z. cbn in Z. contradiction.
  - assert (SI : shape_intersect asort (Leaf f bx) (c_ray c) = (Fin t :: Fin t :: [], s_id f :: [s_id f])) by (cbn [shape_intersect]; rewrite H; reflexivity).
    destruct (first_of asort (Leaf f bx) c t (s_id f) [] [s_id f] SI (Forall_nil _)) as [P1 P2]. split.
    + intros q Q X I. assert (q = t) by (apply U, SO; auto). subst q. apply (stopped asort (Leaf f bx) c t f); auto. left. reflexivity.
    + intro K. destruct (Rle_dec t 0) as [L|L]; [auto|]. exfalso. apply SO in S. apply (K t); [lra|apply S|apply S].
  - assert (SI : shape_intersect asort (Leaf f bx) (c_ray c) = ([PInf; PInf], [s_id f; s_id f])) by (cbn [shape_intersect]; rewrite H; reflexivity).
    split.
    + intros q Q X I. exfalso. apply (N q), SO. auto.
    + intros _. apply (nothing_hit asort _ c _ _ SI). repeat constructor.
Qed.

(** ** Stops *)
Definition wo : mat := M4 (V4 0 (-1) 0 0) (V4 0 0 (-1) 0) (V4 1 0 0 0) (V4 0 0 0 1).
Definition ws : mat := M4 (V4 0 0 1 0) (V4 (-1) 0 0 0) (V4 0 (-1) 0 0) (V4 0 0 0 1).
Lemma ws_eq : mmul rx_90 (mmul ry90 mid) = ws.
Proof. rewrite mmul_mid_r. unfold rx_90, ry90, ws, mmul, mapply, mtrans, vdot; cbn [vx vy vz vw row0 row1 row2 row3]; repeat f_equal; ring. Qed.
Lemma wo_inverse : is_inverse (mmul rx_90 (mmul ry90 mid)) wo.
Proof. rewrite ws_eq. split; unfold ws, wo, mmul, mapply, mtrans, vdot, mid; cbn [vx vy vz vw row0 row1 row2 row3]; repeat f_equal; ring. Qed.
Lemma map_wo : forall x y z, mapply wo (pt x y z) = pt (- y) (- z) x.
Proof. intros. unfold pt, wo, mapply, vdot; cbn [vx vy vz vw row0 row1 row2 row3]. f_equal; ring. Qed.
Lemma ray_wo : forall x y z dx dy dz, ray_map wo (Ray (pt x y z) (V4 dx dy dz 0)) = Ray (pt (- y) (- z) x) (V4 (- dy) (- dz) dx 0).
Proof. intros. unfold ray_map. cbn [origin direction]. rewrite map_wo. f_equal. unfold wo, mapply, vdot; cbn [vx vy vz vw row0 row1 row2 row3]. f_equal; ring. Qed.

Lemma stop_shape : forall asort a b op, argsort_ok asort -> 0 <= a -> 0 <= b -> ap_ok op ->
  built asort (aperture (Pair a b) op) (fun s => exists p, create_aperture op (1 / 10) = Some p /\ erase s = mv rx_90 (mv ry90 (stop_tree a b p))).
Proof.
  intros asort a b op AO A B O. destruct (create_aperture_ok op (1 / 10) O) as (p & Ep).
  apply (aperture_built asort a b op p); auto. intros s E _ _. exists p. auto.
Qed.
Section Stop.
  Variables (asort : list xr -> list nat) (a b : R) (op : aperture_arg) (s : shape) (p : prim).
  Hypotheses (AS : argsort_ok asort) (A : 0 <= a) (B : 0 <= b) (O : ap_ok op) (Ep : create_aperture op (1 / 10) = Some p).
  Hypotheses (ES : erase s = mv rx_90 (mv ry90 (stop_tree a b p))) (TO : tree_ok s) (BC : boxes_current s).
  Lemma stop_parts : exists i bx f bf g bg, s = Node i DIFFERENCE bx (Leaf f bf) (Leaf g bg) /\
    s_prim f = PPlane a b /\ s_mat f = Absorber /\ s_obj f = wo /\ surf_ok f /\ bx = surf_box (PPlane a b) (s_world f) /\
    s_prim g = p /\ s_obj g = wo /\ surf_ok g.
  Proof.
    destruct (erase_diff _ _ _ ES) as (i & bx & l & r & -> & El & Er). destruct TO as [TOl TOr]. destruct BC as (BCl & _ & as' & _ & Eb).
    destruct (erase_leaf_any _ _ _ _ _ El TOl) as (f & bf & -> & PF & MF & WF & OF).
    destruct (erase_leaf_any _ _ _ _ _ Er TOr) as (g & bg & -> & PG & _ & WG & OG).
    exists i, bx, f, bf, g, bg. split; [reflexivity|]. split; [exact PF|]. split; [exact MF|]. split.
    - destruct OF as (_ & _ & I). rewrite WF in I. exact (ComponentOptics.inverse_unique _ _ _ I wo_inverse).
    - split; [exact OF|]. split; [cbn in BCl; rewrite Eb; cbn [csg_box shape_box]; rewrite BCl, PF; reflexivity|]. split; [exact PG|].
      split; [|exact OG]. destruct OG as (_ & _ & I). rewrite WG in I. exact (ComponentOptics.inverse_unique _ _ _ I wo_inverse).
  Qed.
  Section Ray.
    Variables (c : col) (x y z dx dy dz : R).
    Hypothesis R : c_ray c = Ray (pt x y z) (V4 dx dy dz 0).
    Hypothesis CT : clear_towards op (V4 dx dy dz 0).
    Hypothesis MV : ~ (dx = 0 /\ dy = 0 /\ dz = 0).
    Lemma stop_world : world_ray (c_ray c).
    Proof. rewrite R. split; [reflexivity|]. split; [reflexivity|]. exact MV. Qed.
    (** the cutter, as the ray sees it *)
    Lemma cutter_column : forall g, s_prim g = p -> s_obj g = wo -> surf_ok g ->
      let P := fun t => in_aperture op (0, 0) (y + t * dy) (z + t * dz) /\ - (1 / 20) <= x + t * dx <= 1 / 20 in
      (exists u v, surf_hits g (c_ray c) = [Fin u; Fin v] /\ u <= v /\ forall t, P t <-> u <= t <= v) \/
      (surf_hits g (c_ray c) = [PInf; PInf] /\ forall t t', P t -> P t' -> t = t').
    Proof.
      clear A B ES TO BC. intros g PG OG K P. assert (Q : forall t, placed g (ray_at (c_ray c) t) <-> P t).
      { intro t. rewrite R, ray_pt. rewrite placed_local by (auto; reflexivity). rewrite PG, OG, map_wo.
        pose proof (aperture_solid op (1 / 10) p (0, 0) (- (y + t * dy)) (- (z + t * dz)) (x + t * dx) O ltac:(lra) Ep) as S.
        cbn [fst snd] in S. rewrite !Rminus_0_r in S. rewrite S, in_aperture_neg. unfold P. replace (1 / 10 / 2) with (1 / 20) by lra. tauto. }
      destruct (surf_chord g (c_ray c) K stop_world) as [(u & v & H & L & S)|[H S]].
      - rewrite PG, OG, R, ray_wo. destruct CT as (Cx & Cy & Cz & Cr). cbn [vx vy vz] in *. revert Ep. unfold create_aperture.
        destruct op as [d|e f].
        + intro E. injection E as <-. split; [|exact I]. unfold clear_ray. cbn [direction vx vy vz].
          replace (- dy * - dy + - dz * - dz) with (dy * dy + dz * dz) by ring. auto.
        + destruct (rltb 0 e && rltb 0 f)%bool; [|discriminate]. intro E. injection E as <-. split; [|exact I]. unfold clear_ray.
          cbn [direction vx vy vz]. auto using clear_opp.
      - left. exists u, v. split; [exact H|]. split; [exact L|]. intro t. rewrite <- Q. apply S.
      - right. split; [exact H|]. intros t t'. rewrite <- !Q. apply S.
    Qed.
    Lemma stop_plane : forall f, s_prim f = PPlane a b -> s_obj f = wo ->
      (surf_hits f (c_ray c) = [PInf; PInf] /\ (dx <> 0 -> forall q, x + q * dx = 0 -> ~ in_aperture (Pair a b) (0, 0) (y + q * dy) (z + q * dz))) \/
      (exists t, surf_hits f (c_ray c) = [Fin t; Fin t] /\ x + t * dx = 0 /\ in_aperture (Pair a b) (0, 0) (y + t * dy) (z + t * dz)).
    Proof.
      intros f PF OF. destruct CT as (Cx & Cy & Cz & _). cbn [vx vy vz] in *.
      assert (SO : forall q, solid (PPlane a b) (ray_at (ray_map wo (c_ray c)) q) <-> x + q * dx = 0 /\ in_aperture (Pair a b) (0, 0) (y + q * dy) (z + q * dz)).
      { intro q. rewrite R, ray_wo, ray_pt. unfold solid, pt. cbn [vx vy vz in_aperture fst snd]. rewrite !Rminus_0_r.
        replace (- z + q * - dz) with (- (z + q * dz)) by ring. replace (- y + q * - dy) with (- (y + q * dy)) by ring. rewrite !Rabs_Ropp. tauto. }
      assert (CR : clear_ray (PPlane a b) (ray_map wo (c_ray c))).
      { rewrite R, ray_wo. unfold clear_ray. cbn [direction vx vy vz]. auto using clear_opp. }
      destruct (plane_column f a b wo A B PF OF (c_ray c) CR) as [[Z H]|[(t & H & S & U)|[H N]]].
      - left. split; [exact H|]. rewrite R, ray_wo in Z. cbn in Z. intros D. contradiction.
      - right. exists t. apply SO in S. tauto.
      - left. split; [exact H|]. intros _ q X I. apply (N q), SO. auto.
    Qed.
    Lemma stop_box : forall f q, s_prim f = PPlane a b -> s_obj f = wo -> surf_ok f -> x + q * dx = 0 ->
      in_open_aperture (Pair a b) (0, 0) (y + q * dy) (z + q * dz) -> box_hit (surf_box (PPlane a b) (s_world f)) (c_ray c) = true.
    Proof.
      intros f q PF OF K X I. destruct CT as (Cx & Cy & Cz & _). cbn [vx vy vz] in *.
      apply box_hit_crosses; [apply surf_box_vbox|apply stop_world|rewrite R; split; [exact Cx|]; split; [exact Cy|exact Cz]|].
      pose (w := Surf 0 (PCube (- a / 2, - b / 2, - (1 / 100)) (a / 2, b / 2, 1 / 100)) (s_world f) (s_obj f) 1 Absorber).
      assert (KW : surf_ok w) by (destruct K as (_ & K1 & K2); split; [constructor|auto]).
      assert (N : near (fun u => in_box (surf_box (PPlane a b) (s_world f)) (ray_at (c_ray c) (q + u)))).
      { eapply near_impl; [|apply near_and; [apply (near_aperture (Pair a b) (0, 0) (y + q * dy) (z + q * dz) dy dz I)|
          apply near_and; [apply (near_line 0 dx (1 / 100)); lra|apply (near_line' 0 dx (- (1 / 100))); lra]]].
        intros u ((Y & Z) & U1 & U2). cbn [fst snd] in Y, Z.
        change (surf_box (PPlane a b) (s_world f)) with (surf_box (s_prim w) (s_world w)).
        apply surf_box_contains; [exact (proj1 KW)|]. rewrite R, ray_pt. apply placed_local; [exact KW|reflexivity|].
        cbn [s_prim s_obj w]. rewrite OF, map_wo. unfold solid, pt. cbn [vx vy vz]. rewrite Rminus_0_r in Y, Z.
        assert (W : forall m n, Rabs m <= n -> - n <= m <= n) by (intros m n; unfold Rabs; destruct (Rcase_abs m); lra).
        apply W in Y. apply W in Z. unfold between. rewrite ?Rmin_left, ?Rmax_right by lra. repeat split; lra. }
      destruct N as (e & E0 & N). exists (q + - e), (q + e). split; [lra|]. split; apply N; [rewrite Rabs_Ropp|]; rewrite Rabs_right; lra.
    Qed.
  End Ray.
End Stop.
