(** * Props_Medium: rows record the index of the medium they run in *)
From Coq Require Import Reals List Bool ZArith.
Import ListNotations.
From Verif Require Import XR Lin Csg CsgProps Prim Surf SpecGeom SpecTree SpecNormal World Tracer SpecTrace SpecOptics SpecCrossing SpecMedium NormalSides MediumProps MediumExamples MediumExamples2 MediumExamples3.
Open Scope R_scope.

(** The normal a surface gives says on which side of it its solid lies: directions against the normal lead in, directions
    along it lead out ([s_nscale] is 1, or -1 for a surface that a difference has turned round) *)
Theorem C16_normals_part_inside_from_outside : forall f x, surf_ok f -> vw x = 1 -> s_nscale f = 1 \/ s_nscale f = -1 ->
  smooth_at (s_prim f) (mapply (s_obj f) x) -> off_edges (s_prim f) (mapply (s_obj f) x) ->
  exists n, world_normal f x = Some n /\ unit n /\ vw n = 0 /\ sided (placed f) x (vscale (s_nscale f) n).
Proof. exact placed_sided. Qed.
Print Assumptions C16_normals_part_inside_from_outside.

(** C97.  [rows] are the rows of one ray of any trace, [c] the ray.  If it starts in the medium its source says, every row
    runs in a medium of the row's index, from its start to its end. *)
Theorem C97_rows_record_the_index_they_run_in : forall asort, argsort_ok asort -> forall gen h t comps fuel t', proper gen h t comps -> bench comps ->
  trace asort h gen fuel t = TOk t' -> forall i rows c, rows = rows_with_id i (f_rows (get_results t')) ->
  nth_error (source_rays gen t) i = Some c -> starts_in comps (c_wl c) (c_ray c) (c_idx c) ->
  (forall w, In w rows -> in_sight comps w) ->
  (forall j w w', nth_error rows j = Some w -> nth_error rows (S j) = Some w' -> plain comps w w') ->
  forall w, In w rows -> index_true comps w.
Proof. exact indices_true. Qed.
Print Assumptions C97_rows_record_the_index_they_run_in.

(** A ray up through a slab of index 4/3 inside an absorbing ball, and one down *)
Example C97_case : forall asort, argsort_ok asort -> exists h t comps t', let gen := fun _ _ => up_and_down in
  proper gen h t comps /\ bench comps /\ trace asort h gen 22 t = TOk t' /\ source_rays gen t = up_and_down /\
  forall i, (i < 2)%nat -> let rows := rows_with_id i (f_rows (get_results t')) in
    (exists c, nth_error (source_rays gen t) i = Some c /\ starts_in comps (c_wl c) (c_ray c) (c_idx c)) /\
    (forall w, In w rows -> in_sight comps w) /\
    (forall j w w', nth_error rows j = Some w -> nth_error rows (S j) = Some w' -> plain comps w w') /\
    map row_idx rows = [1; 4 / 3; 1].
Proof.
  intros asort AS. destruct (slab_case asort AS) as (h & t & comps & g1 & g2 & t' & P & B & L & T & SR & ST & H & R0 & R1 & _). exists h, t, comps, t'. cbv zeta. do 4 (split; [assumption|]).
  intros i I. destruct (H i I) as (H1 & H2). split; [|split; [exact H1|split; [exact H2|]]].
  - destruct i as [|[|i]]; [| |exfalso; Lia.lia]; eexists; (split; [rewrite SR; reflexivity|]); [apply (ST 0%nat)|apply (ST 1%nat)]; reflexivity.
  - assert (K : forall i a c p k rows, slab_rows g1 g2 i a c p k rows -> map row_idx rows = [1; 4 / 3; 1]).
    { intros i0 a c p k rows (w0 & w1 & w2 & -> & _ & _ & _ & I0 & I1 & I2 & _). cbn [map]. rewrite I0, I1, I2. reflexivity. }
    destruct i as [|[|i]]; [apply (K _ _ _ _ _ _ R0)|apply (K _ _ _ _ _ _ R1)|exfalso; Lia.lia].
Qed.

(** Where two pieces of glass touch it is not so: a ray that passes from one block of index 4/3 straight into another is
    recorded with the index 1 in the second *)
Theorem C97_touching_glass_refuted : forall asort, argsort_ok asort -> exists gen h t comps fuel t' w s,
  proper gen h t comps /\ trace asort h gen fuel t = TOk t' /\ In w (f_rows (get_results t')) /\
  In s comps /\ of_glass s (fun _ => Fin (4 / 3)) /\ row_idx w = 1 /\ vz (row_end w) = 3 /\
  (forall q, 0 < q < 3 - (2 + ray_offset_value) -> inside s (ray_at (way w) q)) /\
  (forall n, medium comps (row_wl w) (here (row_end w)) n -> n = 4 / 3) /\ ~ index_true comps w.
Proof.
  intros asort AS. destruct (touching_case asort AS) as (h & t & comps & t' & w & s & H). exists (fun _ _ => up_ray), h, t, comps, 22%nat, t', w, s. exact H.
Qed.
Print Assumptions C97_touching_glass_refuted.
