(** * Property C122: what rays keep where the surfaces are symmetric *)
From Coq Require Import Reals List Bool ZArith Lra.
Import ListNotations.
From Verif Require Import XR XRFacts Arr Lin LinFacts Ops SpecOptics Prim Csg Surf SpecGeom SpecTree CsgProps World SpecWorld Components SpecComponents Tracer SpecTrace TraceFacts5 TraceFacts7 TraceProps
  SpecMotion SpecSymmetry SpecTrain ImageFacts SpecImages ImageExamples SpecSkew SkewFacts SkewFacts2 SkewFacts3 SkewExamples.
Open Scope R_scope.

(** Any axis: through [q] along [e].  While a ray only meets surfaces whose normals, where it meets them, meet the axis or are
    parallel to it, the index times the moment of its direction about the axis stays the same, whether it is
    refracted, reflected or totally reflected. *)
Theorem C122_skewness_is_kept : forall asort, argsort_ok asort -> forall gen h t comps fuel t', proper gen h t comps -> trace asort h gen fuel t = TOk t' ->
  forall q e i before ws w after, rows_with_id i (f_rows (get_results t')) = before ++ ws ++ w :: after ->
  Forall (ends_about (flat_map surface_ids comps) q e) ws ->
  row_idx w * moment q e (row_start w) (row_tilt w) = row_idx (hd w ws) * moment q e (row_start (hd w ws)) (row_tilt (hd w ws)) /\
  moment q e (row_end w) (row_tilt w) = moment q e (row_start w) (row_tilt w).
Proof. exact kept_about. Qed.
Print Assumptions C122_skewness_is_kept.

(** Any direction [e]: while a ray only meets surfaces whose normals, where it meets them, are at right angles to [e], as those of
    prisms, plates, mirrors and cylinders standing along [e], the index times the part of its direction along [e] stays the same. *)
Theorem C122_the_part_along_an_edge_is_kept : forall asort, argsort_ok asort -> forall gen h t comps fuel t', proper gen h t comps -> trace asort h gen fuel t = TOk t' ->
  forall e i before ws w after, rows_with_id i (f_rows (get_results t')) = before ++ ws ++ w :: after ->
  Forall (ends_along (flat_map surface_ids comps) e) ws -> row_idx w * vdot e (row_tilt w) = row_idx (hd w ws) * vdot e (row_tilt (hd w ws)).
Proof. exact kept_along. Qed.
Print Assumptions C122_the_part_along_an_edge_is_kept.

(** A bench of parts that are round about the x axis: all rows of a ray have the same skewness. *)
Theorem C122_round_benches : forall asort, argsort_ok asort -> forall gen h t comps fuel t', proper gen h t comps -> trace asort h gen fuel t = TOk t' ->
  (forall s, In s (flat_map surface_ids comps) -> round_about_x s \/ s_mat s = Absorber) ->
  forall i w w', In w (rows_with_id i (f_rows (get_results t'))) -> In w' (rows_with_id i (f_rows (get_results t'))) -> twist w' = twist w.
Proof. exact round_bench. Qed.
Print Assumptions C122_round_benches.

(** Which parts are round: every surface but a cuboid that is placed by moves and rotations and looks the same in the mirror
    planes y = 0 and z = 0 (C84 says which components do); and all surfaces of a lens with a round aperture, however it
    was made, wherever it stands on the axis, and its refracting faces for any aperture *)
Theorem C122_symmetric_surfaces_are_round : forall s, surf_ok s -> SpecMotion.isometry (s_world s) -> symmetric_surf mirror_y s -> symmetric_surf mirror_z s ->
  (forall a b, s_prim s <> PCube a b) -> round_about_x s.
Proof. exact symmetric_round. Qed.
Print Assumptions C122_symmetric_surfaces_are_round.
Theorem C122_lenses_are_round : forall asort, argsort_ok asort -> forall l s, lens_ok l -> made asort (lens_call l) s -> forall f, In f (surface_ids s) ->
  ((forall a b, s_prim f <> PCube a b) \/ exists d, l_ap l = Round d) -> round_about_x f.
Proof. exact lens_round. Qed.
Print Assumptions C122_lenses_are_round.

(** So a bench of lenses with round apertures on the axis, and absorbers anywhere, keeps the skewness of every ray. *)
Theorem C122_lenses_keep_the_skewness : forall asort, argsort_ok asort -> forall gen h t comps fuel t', proper gen h t comps -> trace asort h gen fuel t = TOk t' ->
  (forall s, In s comps -> (exists l d, lens_ok l /\ l_ap l = Round d /\ made asort (lens_call l) s) \/ forall f, In f (surface_ids s) -> s_mat f = Absorber) ->
  forall i w w', In w (rows_with_id i (f_rows (get_results t'))) -> In w' (rows_with_id i (f_rows (get_results t'))) -> twist w' = twist w.
Proof.
  intros asort AS gen h t comps fuel t' PR TR L. apply (round_bench asort AS gen h t comps fuel t' PR TR). intros f F. apply in_flat_map in F.
  destruct F as (s & S & F). destruct (L s S) as [(l & d & OK & AP & M)|A]; [left|right; auto]. apply (lens_round asort AS l s OK M f F). eauto.
Qed.
Print Assumptions C122_lenses_keep_the_skewness.

(** A skew ray into a ball of glass: the hypotheses of C122_round_benches are met by a ray that is refracted *)
Example C122_skew_case : forall asort, argsort_ok asort -> exists h t comps t' w0 w1 after,
  proper (fun _ _ => skew_ray) h t comps /\ trace asort h (fun _ _ => skew_ray) 22 t = TOk t' /\
  rows_with_id 0 (f_rows (get_results t')) = w0 :: w1 :: after /\
  (forall s, In s (flat_map surface_ids comps) -> round_about_x s \/ s_mat s = Absorber) /\
  (exists s, In s (flat_map surface_ids comps) /\ s_id s = row_surf w0 /\ s_mat s = Refractor (fun _ => Fin (3 / 2))) /\
  twist w0 = 4 / 5 /\ twist w1 = 4 / 5.
Proof.
  intros asort AS. destruct (skew_case asort AS) as (h & t & comps & t' & w0 & w1 & after & PR & TR & R & RD & G & TW). exists h, t, comps, t', w0, w1, after.
  do 6 (split; [assumption|]). rewrite <- TW. apply (C122_round_benches asort AS _ h t comps 22%nat t' PR TR RD 0%nat); rewrite R; cbn; auto.
Qed.
(** The ray in the mirrored box of C120, off two of its sides: they stand along z *)
Example C122_edge_case : forall asort, argsort_ok asort -> exists h t comps t' w0 w1 w2 after,
  proper (fun _ _ => inner_ray) h t comps /\ trace asort h (fun _ _ => inner_ray) 22 t = TOk t' /\
  rows_with_id 0 (f_rows (get_results t')) = [] ++ [w0; w1] ++ w2 :: after /\
  Forall (ends_along (flat_map surface_ids comps) (V4 0 0 1 0)) [w0; w1] /\ vdot (V4 0 0 1 0) (row_tilt w0) = 2 / 3.
Proof.
  intros asort AS. destruct (box_case asort AS) as (h & t & comps & t' & w0 & w1 & w2 & w3 & after & PR & TR & R & OM & S0 & D0).
  exists h, t, comps, t', w0, w1, w2, (w3 :: after). do 3 (split; [assumption|]). split.
  - inversion OM as [|? ? ? ? X1 OM1]; subst. inversion OM1 as [|? ? ? ? X2 OM2]; subst.
    constructor; [|constructor; [|constructor]]; [destruct X1 as (s & IN & ID & _ & _ & [WN|WN])|destruct X2 as (s & IN & ID & _ & _ & [WN|WN])]; eexists s, _; (split; [exact IN|]); (split; [exact ID|]); (split; [exact WN|]);
      unfold side_x, side_y, vopp, vscale, vdot; cbn; ring.
  - rewrite D0. unfold vdot; cbn. field.
Qed.
