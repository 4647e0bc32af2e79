(** * Props_Reverse: light goes back the way it came *)
From Coq Require Import Reals List Bool ZArith Lra Lia.
Import ListNotations.
From Verif Require Import XR Lin Csg CsgProps Prim Surf SpecGeom SpecTree World Tracer SpecTrace TraceFacts5 TraceProps SpecOptics SpecCrossing SpecMedium MediumProps MediumExamples MediumExamples2 SpecReverse ReverseProps.
Open Scope R_scope.

(** C98.  [rows] are the rows of one ray, as in C97, and [back] those of a ray, of the same or any other trace in the same
    scene, that is sent back along row [k].  It has a row against each row after the first, in the same medium, and ends
    each at the surface and the point where the row before ended; it leaves against the first row. *)
Theorem C98_rays_sent_back_retrace_their_path : forall asort, argsort_ok asort -> forall comps gen h t fuel t' i rows c,
  proper gen h t comps -> bench comps -> trace asort h gen fuel t = TOk t' -> rows = rows_with_id i (f_rows (get_results t')) ->
  nth_error (source_rays gen t) i = Some c -> starts_in comps (c_wl c) (c_ray c) (c_idx c) ->
  (forall w, In w rows -> in_sight comps w) ->
  (forall j w w', nth_error rows j = Some w -> nth_error rows (S j) = Some w' -> plain comps w w') ->
  forall gen2 h2 t2 fuel2 t2' i2 back c2, proper gen2 h2 t2 comps -> trace asort h2 gen2 fuel2 t2 = TOk t2' ->
  back = rows_with_id i2 (f_rows (get_results t2')) -> nth_error (source_rays gen2 t2) i2 = Some c2 ->
  forall k last, nth_error rows k = Some last -> sent_back last c2 ->
  (forall j w, (0 < j < k)%nat -> nth_error rows j = Some w -> seen comps (returned w)) -> seen comps (c_ray c2) -> (Z.of_nat k <= t_limit t2)%Z ->
  (forall j w w', (j < k)%nat -> nth_error rows j = Some w -> nth_error rows (S j) = Some w' ->
     exists v, nth_error back (k - S j) = Some v /\ against w' v /\ ends_like w v) /\
  (forall w v, (0 < k)%nat -> nth_error rows 0 = Some w -> nth_error back k = Some v ->
     against w v /\ here (row_start v) = ray_at (Ray (here (row_end w)) (row_tilt v)) ray_offset_value).
Proof.
  intros asort AS comps gen h t fuel t' i rows c PR BN T ER NC ST IS PL gen2 h2 t2 fuel2 t2' i2 back c2 PR2 T2 ER2 NC2 k last LA SB SE SE2 LI. split.
  - intros j w w'. apply (retraced asort AS comps gen h t fuel t' i rows c) with (gen2 := gen2) (h2 := h2) (t2 := t2) (fuel2 := fuel2) (t2' := t2') (i2 := i2) (c2 := c2) (last := last); auto.
  - intros w v. apply (retraced_out asort AS comps gen h t fuel t' i rows c) with (gen2 := gen2) (h2 := h2) (t2 := t2) (fuel2 := fuel2) (t2' := t2') (i2 := i2) (c2 := c2) (last := last); auto.
Qed.
Print Assumptions C98_rays_sent_back_retrace_their_path.

(** The ray up through the slab of C97's case, and the one down, which is sent back along the last row of the first *)
Example C98_case : forall asort, argsort_ok asort -> exists h t comps t' last c2, let gen := fun _ _ => up_and_down in
  let rows := rows_with_id 0 (f_rows (get_results t')) in let back := rows_with_id 1 (f_rows (get_results t')) in
  proper gen h t comps /\ bench comps /\ trace asort h gen 22 t = TOk t' /\
  (exists c, nth_error (source_rays gen t) 0 = Some c /\ starts_in comps (c_wl c) (c_ray c) (c_idx c)) /\
  (forall w, In w rows -> in_sight comps w) /\
  (forall j w w', nth_error rows j = Some w -> nth_error rows (S j) = Some w' -> plain comps w w') /\
  nth_error (source_rays gen t) 1 = Some c2 /\ nth_error rows 2 = Some last /\ sent_back last c2 /\
  (forall j w, (0 < j < 2)%nat -> nth_error rows j = Some w -> seen comps (returned w)) /\ seen comps (c_ray c2) /\ (2 <= t_limit t)%Z /\
  length rows = 3%nat /\ length back = 3%nat.
Proof.
  intros asort AS. destruct (slab_case asort AS) as (h & t & comps & g1 & g2 & t' & P & B & L & T & SR & ST & H & R0 & R1 & FAR).
  destruct R0 as (w0 & w1 & w2 & E & W0 & W1 & W2 & I0 & I1 & I2 & L0 & L1 & L2 & E0 & E1 & S0 & S1 & S2).
  destruct R1 as (v0 & v1 & v2 & E' & V0 & V1 & V2 & J0 & J1 & J2 & M0 & M1 & M2 & F0 & F1 & Q0 & Q1 & Q2).
  exists h, t, comps, t', w2, (Col (leg_in (41 / 12) 3 (-1)) 0 100 1 1 0). cbv zeta.
  destruct (H 0%nat ltac:(lia)) as (H1 & H2). destruct (H 1%nat ltac:(lia)) as (H3 & _).
  do 3 (split; [assumption|]). split; [eexists; split; [rewrite SR; reflexivity|apply (ST 0%nat); reflexivity]|]. do 2 (split; [assumption|]).
  split; [rewrite SR; reflexivity|]. split; [rewrite E; reflexivity|].
  assert (D1 : row_tilt w1 = V4 (3 / 5) 0 (4 / 5) 0) by (unfold way, leg_mid, flat in W1; injection W1 as _ _ _ ->; f_equal; field).
  assert (D2 : row_tilt w2 = V4 (4 / 5) 0 (3 / 5) 0) by (unfold way, leg_out, flat in W2; injection W2 as _ _ _ ->; f_equal; field).
  split; [|split; [|split; [|split; [rewrite L; lia|rewrite E, E'; split; reflexivity]]]].
  - (* sent back *)
    unfold sent_back. cbn [c_wl c_idx c_ray leg_in flat direction origin]. rewrite L2, I2, D2.
    do 2 (split; [reflexivity|]). split; [unfold vopp, vscale; cbn; f_equal; field|].
    destruct (proper_legs asort AS _ _ _ _ _ _ P T) as (LG & _). assert (IW : In w2 (rows_with_id 0 (f_rows (get_results t')))) by (rewrite E; right; right; left; reflexivity).
    pose proof (FAR w2 IW S2) as FW. apply in_rows_with_id in IW. destruct (LG w2 (proj1 IW)) as (U & D & len & LEN & EN & _).
    exists (5 / 3 - ray_offset_value), len. rewrite D2 in EN. split; [exact EN|]. split; [split; [unfold ray_offset_value; lra|]|].
    + destruct (Rle_dec (5 / 3 - ray_offset_value) len) as [|X]; auto. exfalso. unfold way, leg_out, flat in W2. rewrite EN in FW.
      destruct (row_start w2) as [x y z w]. unfold here, vset_w in W2. cbn [vx vy vz] in W2. injection W2 as -> -> -> _.
      cbn [vadd vscale vx vy vz vw] in FW. unfold z_out in FW. set (o := ray_offset_value) in *. assert (0 < o) by (unfold o, ray_offset_value; lra).
      replace (4 / 3 + 1 * (3 / 4) + o * (1 * (4 / 5)) + len * (4 / 5)) with (25 / 12 + 4 / 5 * (o + len)) in FW by field.
      replace ((3 + 1) / 2 + o * (1 * (3 / 5)) + len * (3 / 5)) with (2 + 3 / 5 * (o + len)) in FW by field. assert (0 < o + len < 5 / 3) by lra. clearbody o. nra.
    + rewrite W2. unfold leg_out. rewrite flat_at. unfold z_out. f_equal; field.
  - (* the only row between is the one in the slab *)
    intros [|[|j]] w JJ J; try lia. rewrite E in J. injection J as <-.
    assert (X : returned w1 = way v1); [|rewrite X; apply (H3 v1); rewrite E'; right; left; reflexivity].
    rewrite V1. unfold returned, leg_mid, flat. rewrite D1. revert E1. unfold here, vset_w, vadd, vscale, vopp, vscale, z_in, z_out. cbn [vx vy vz vw]. intro E1. injection E1 as -> -> ->.
    f_equal; f_equal; field.
  - assert (X : way v0 = c_ray (Col (leg_in (41 / 12) 3 (-1)) 0 100 1 1 0)) by exact V0. rewrite <- X. apply (H3 v0). rewrite E'. left. reflexivity.
Qed.
