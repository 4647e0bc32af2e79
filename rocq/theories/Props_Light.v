(** * Property C121: faces turned to the viewer of a drawing are lit *)
From Coq Require Import Reals List Bool ZArith Lra.
Import ListNotations.
From Verif Require Import XR XRFacts Arr Lin LinFacts Prim Csg CsgProps Surf SpecGeom SpecTree TreeExamples World SpecWorld Tracer Render SpecRender Utils SpecUtils Show Renderers SpecShow UnionFacts SpecLight LightFacts.
Open Scope R_scope.

(** Every pixel of a shaded drawing that shows a point whose normal goes straight to the viewer mixes the warm and the cool tone of
    the material of the part shown, and there is more of the warm tone exactly where the light stands between viewer and
    point: above the point in the xy view, where the light is at three times the largest z, and on the viewer's side of it in the
    xz view, where the light is at minus three times the largest y. The ray of the pixel starts at one and a half times
    the largest z, or the largest y *)
Theorem C121_faces_to_the_viewer_exactly : forall asort gooch_of shapes v bounds n image extent mins maxes, v = XY \/ v = XZ ->
  pictured shapes bounds mins maxes -> draw asort gooch_of shapes v true bounds n = Drawn image extent ->
  (forall s, In s (parts shapes) -> (0 <= s_id s)%Z) ->
  (forall s s', In s (parts shapes) -> In s' (parts shapes) -> s_id s = s_id s' -> s = s') ->
  exists rows columns, length image = rows /\ (fst (sides v mins maxes) = snd (sides v mins maxes) -> rows = n /\ columns = n) /\ forall i j, (i < rows)%nat -> (j < columns)%nat ->
  exists row px r, nth_error image i = Some row /\ length row = columns /\ nth_error row j = Some px /\
    in_pixel_cell extent rows columns i j (fst (projected v (origin r))) (snd (projected v (origin r))) /\ direction r = vopp (to_viewer v) /\
    vw (origin r) = 1 /\ match v with XZ => vy (origin r) = 3 / 2 * cy maxes | _ => vz (origin r) = 3 / 2 * cz maxes end /\
    forall t s, In s (parts shapes) -> render_hit asort shapes r = (Fin t, s_id s) -> world_normal s (ray_at r t) = Some (to_viewer v) ->
      ~ at_the_light v maxes (ray_at r t) ->
      exists k, px = Some (mixed k (warm_tone (gooch_of s)) (cool_tone (gooch_of s))) /\ (1 / 2 < k <-> behind_the_light v maxes (ray_at r t)).
Proof. exact lit_drawing. Qed.
Print Assumptions C121_faces_to_the_viewer_exactly.

(** Full statement: a face turned straight to the viewer is lit, which is to say it shows more of the warm tone. It holds where the
    light stands before the point. Missing: in the xy view scenes whose largest z is not positive, in the xz view
    scenes that reach further towards the viewer than three times their largest y, see the refutations *)
Theorem C121_blocks_are_lit_partial : forall asort gooch_of a b, a < b -> 0 < b -> 
  (exists image extent row px k,
    draw asort gooch_of [leaf_of (block_xy a b)] XY true None 3 = Drawn image extent /\ nth_error image 1 = Some row /\ nth_error row 1 = Some (Some px) /\
    px = mixed k (warm_tone (gooch_of (block_xy a b))) (cool_tone (gooch_of (block_xy a b))) /\ 1 / 2 < k) /\
  (- 3 * b < a -> isclose a b = false -> exists image extent row px k,
    draw asort gooch_of [leaf_of (block_xz a b)] XZ true None 3 = Drawn image extent /\ nth_error image 1 = Some row /\ nth_error row 1 = Some (Some px) /\
    px = mixed k (warm_tone (gooch_of (block_xz a b))) (cool_tone (gooch_of (block_xz a b))) /\ 1 / 2 < k).
Proof.
  intros asort gooch_of a b AB B. split.
  - destruct (lit_block_xy asort gooch_of a b AB (or_introl B)) as (im & ex & row & px & k & H1 & H2 & H3 & H4 & H5). exists im, ex, row, px, k. rewrite H5. auto.
  - intros A IC. destruct (lit_block_xz asort gooch_of a b AB B IC) as (im & ex & row & px & k & H1 & H2 & H3 & H4 & H5). exists im, ex, row, px, k. rewrite H5. auto.
Qed.
Print Assumptions C121_blocks_are_lit_partial.

(** A block below z = 0, seen from above: the light stands below it, and its top is drawn as in the shade. *)
Theorem C121_low_scene_refuted : forall asort gooch_of, exists image extent row px k,
  draw asort gooch_of [leaf_of (block_xy (-11 / 5) (-2))] XY true None 3 = Drawn image extent /\ nth_error image 1 = Some row /\ nth_error row 1 = Some (Some px) /\
  px = mixed k (warm_tone (gooch_of (block_xy (-11 / 5) (-2)))) (cool_tone (gooch_of (block_xy (-11 / 5) (-2)))) /\ k <= 1 / 2.
Proof.
  intros. destruct (lit_block_xy asort gooch_of (-11 / 5) (-2)) as (im & ex & row & px & k & H1 & H2 & H3 & H4 & H5); try lra. exists im, ex, row, px, k.
  repeat (split; [assumption|]). apply Rnot_lt_le. rewrite H5. lra.
Qed.
Print Assumptions C121_low_scene_refuted.

(** A block from y = -5 to y = 1, seen in the xz view: the light, at y = -3, stands behind its front. *)
Theorem C121_deep_scene_refuted : forall asort gooch_of, exists image extent row px k,
  draw asort gooch_of [leaf_of (block_xz (-5) 1)] XZ true None 3 = Drawn image extent /\ nth_error image 1 = Some row /\ nth_error row 1 = Some (Some px) /\
  px = mixed k (warm_tone (gooch_of (block_xz (-5) 1))) (cool_tone (gooch_of (block_xz (-5) 1))) /\ k <= 1 / 2.
Proof.
  intros. destruct (lit_block_xz asort gooch_of (-5) 1) as (im & ex & row & px & k & H1 & H2 & H3 & H4 & H5); try lra.
  { apply apart_not_close; lra. }
  exists im, ex, row, px, k. repeat (split; [assumption|]). apply Rnot_lt_le. rewrite H5. lra.
Qed.
Print Assumptions C121_deep_scene_refuted.

(** The hypotheses are met: blocks across the origin, in both views *)
Example C121_case : forall asort gooch_of,
  (exists image extent row px k, draw asort gooch_of [leaf_of (block_xy 1 2)] XY true None 3 = Drawn image extent /\ nth_error image 1 = Some row /\ nth_error row 1 = Some (Some px) /\
    px = mixed k (warm_tone (gooch_of (block_xy 1 2))) (cool_tone (gooch_of (block_xy 1 2))) /\ 1 / 2 < k) /\
  (exists image extent row px k, draw asort gooch_of [leaf_of (block_xz (-1) 1)] XZ true None 3 = Drawn image extent /\ nth_error image 1 = Some row /\ nth_error row 1 = Some (Some px) /\
    px = mixed k (warm_tone (gooch_of (block_xz (-1) 1))) (cool_tone (gooch_of (block_xz (-1) 1))) /\ 1 / 2 < k).
Proof.
  intros. split.
  - apply (C121_blocks_are_lit_partial asort gooch_of 1 2); lra.
  - apply (C121_blocks_are_lit_partial asort gooch_of (-1) 1); try lra. apply apart_not_close; lra.
Qed.
