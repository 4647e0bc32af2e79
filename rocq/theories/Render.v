(** * Render: model of the camera, the shading and the renderers
    /repo/tinygfx/g3d/world_objects.py:499-537, materials/gooch.py, renderers.py *)
From Coq Require Import Reals List Bool ZArith.
Import ListNotations.
From Verif Require Import XR Arr Lin Prim Csg Surf World Tracer Sources.
Open Scope R_scope.

(** ** The camera *)
(** world_objects.py:504-511: the arguments, and the current world transform (the camera
    is a plain world object, see World.v) *)
Record camera : Type := Camera {
  cam_h_pixels : nat;
  cam_h_width : R;
  cam_aspect : R;
  cam_world : mat
}.
(** Python's [int(x)]: truncation towards zero.  (In Python [x] is the rounded product.) *)
Definition int_trunc (x : R) : Z := if rleb 0 x then Int_part x else (- Int_part (- x))%Z.
(** world_objects.py:510-511 *)
Definition cam_v_width (c : camera) : R := cam_aspect c * cam_h_width c.
Definition cam_v_pixels (c : camera) : Z := int_trunc (cam_aspect c * INR (cam_h_pixels c)).
(** world_objects.py:513-517 [get_resolution], [get_span] *)
Definition cam_resolution (c : camera) : nat * Z := (cam_h_pixels c, cam_v_pixels c).
Definition cam_span (c : camera) : R * R := (cam_h_width c, cam_v_width c).

(** world_objects.py:527-537 [_local_ray_generation].  [np.meshgrid(h, v)] puts h along the
    columns and v along the rows; [reshape(-1)] reads it row by row. *)
Definition cam_local_rays (c : camera) (v_pixels : nat) : list ray :=
  let h_steps := linspace (cam_h_width c / 2) (- cam_h_width c / 2) (cam_h_pixels c) in
  let v_steps := linspace (cam_v_width c / 2) (- cam_v_width c / 2) v_pixels in
  flat_map (fun z => map (fun y => Ray (V4 0 y z 1) (V4 1 0 0 0)) h_steps) v_steps.
(** world_objects.py:519-525, one column; [None] is a nan direction *)
Definition cam_place (m : mat) (r : ray) : option ray :=
  match vnormalize (mapply m (direction r)) with
  | None => None
  | Some d => Some (Ray (mapply m (origin r)) d)
  end.
(** world_objects.py:519-525 [generate_rays]; [None] is the ValueError of a negative
    number of pixels, or nan *)
Definition cam_rays (c : camera) : option (list ray) :=
  if (cam_v_pixels c <? 0)%Z then None
  else collect (map (cam_place (cam_world c)) (cam_local_rays c (Z.to_nat (cam_v_pixels c)))).

(** ** Colours and Gooch shading *)
(** materials/color.py:4-47 *)
Record rgba : Type := RGBA { c_r : R; c_g : R; c_b : R; c_a : R }.
(** color.py:50-56 *)
Definition WHITE : rgba := RGBA 1 1 1 1.
Definition BLACK : rgba := RGBA 0 0 0 1.
Definition RED : rgba := RGBA 1 0 0 1.
Definition GREEN : rgba := RGBA 0 1 0 1.
Definition BLUE : rgba := RGBA 0 0 1 1.
Definition YELLOW : rgba := RGBA 1 1 0 1.
Definition ORANGE : rgba := RGBA 1 (5 / 10) 0 1.
Definition rgba_scale (k : R) (c : rgba) : rgba := RGBA (k * c_r c) (k * c_g c) (k * c_b c) (k * c_a c).
Definition rgba_add (a b : rgba) : rgba := RGBA (c_r a + c_r b) (c_g a + c_g b) (c_b a + c_b b) (c_a a + c_a b).

(** gooch.py:22-29 [GoochMaterial] *)
Record gooch : Type := Gooch { g_base : rgba; g_warm : rgba; g_cool : rgba; g_alpha : R; g_beta : R }.
(** gooch.py:68-82 *)
Definition blue_yellow_gooch (base : rgba) : gooch := Gooch base ORANGE BLUE (3 / 10) (3 / 10).
Definition gooch_blue : gooch := Gooch BLUE YELLOW BLUE (2 / 10) (3 / 10).

(** gooch.py:37-38 *)
Definition shade_warm (g : gooch) : rgba := rgba_add (rgba_scale (1 - g_alpha g) (g_warm g)) (rgba_scale (g_alpha g) (g_base g)).
Definition shade_cool (g : gooch) : rgba := rgba_add (rgba_scale (1 - g_beta g) (g_cool g)) (rgba_scale (g_beta g) (g_base g)).
(** gooch.py:44-62 for one light and one ray: the mixture ratio; [None] is nan (the light
    sits at the point) *)
Definition light_mixture (light p n : v4) : option R :=
  match vnormalize (V4 (vx light - vx p) (vy light - vy p) (vz light - vz p) 0) with
  | None => None
  | Some l => Some (5 / 10 * (1 + (vx l * vx n + vy l * vy n + vz l * vz n)))
  end.
(** gooch.py:31-66 [shade] for one ray and one light given as a point (a 1-d array) *)
Definition gooch_shade (g : gooch) (light p n : v4) : option rgba :=
  match light_mixture light p n with
  | None => None
  | Some m => Some (rgba_add (rgba_scale m (shade_warm g)) (rgba_scale (1 - m) (shade_cool g)))
  end.

(** gooch.py:50-62 for lights given as the columns of a 4xm array, and one ray:
    the light vectors are [lights[:3, :, None] - tile(point, (m, 1, 1))].  For m = 1 numpy
    broadcasts a 3x1x1 with a 1x3xn array, for m = 3 it subtracts 3x3x1 and 3x3xn; any other
    m is a ValueError.  Entry (i, j) is the coordinate i of light j (of the only light),
    minus the coordinate j of the point; the norms of the slices i are divided into the
    entries (i, j) at position j. *)
Definition coord (v : v4) (i : nat) : R := match i with O => vx v | S O => vy v | _ => vz v end.
Definition many_lights_vectors (lights : list v4) (p : v4) : option (nat -> nat -> R) :=
  match lights with
  | [l] => Some (fun i j => coord l i - coord p j)
  | [l0; l1; l2] => Some (fun i j => coord (nth j [l0; l1; l2] l0) i - coord p j)
  | _ => None
  end.
Definition sum3 (f : nat -> R) : R := f 0%nat + f 1%nat + f 2%nat.
Definition many_lights_mixture (lights : list v4) (p n : v4) : option R :=
  match many_lights_vectors lights p with
  | None => None
  | Some l =>
      let norm (i : nat) := sqrt (sum3 (fun j => l i j * l i j)) in
      if Req_EM_T (norm 0%nat * norm 1%nat * norm 2%nat) 0 then None else
      let dot (i : nat) := sum3 (fun j => l i j / norm j * coord n j) in
      Some (sum3 (fun i => 5 / 10 * (1 + dot i)) / 3)
  end.

(** ** The nearest hit of a pixel *)
Section Sorting.
  Variable asort : list xr -> list nat. (* np.argsort *)
  (** renderers.py:79-88 (EdgeRender) and 195-204 (ShadedRenderer), the body of the loop for
      one ray.  Unlike the ray tracer, [nearest_hit] is read from the unfiltered hits. *)
  Definition render_shape (r : ray) (best : xr * Z) (shape : shape) : xr * Z :=
    let '(hits, surfaces) := shape_intersect asort shape r in
    let k := argmin (map positive_or_inf hits) in
    let nearest_hit := nth k hits PInf in
    let nearest_surface := nth k surfaces (-1)%Z in
    if xltb nearest_hit (fst best) then (nearest_hit, nearest_surface) else best.
  (** renderers.py:72-94, 188-210 [_st_propagate] for one ray *)
  Definition render_hit (shapes : list shape) (r : ray) : xr * Z :=
    fold_left (render_shape r) shapes (PInf, (-1)%Z).

  (** ** ShadedRenderer *)
  (** world_objects.py:385-399 [TracerSurface.shade] for one ray; [gooch_of] gives the
      shading attached to the surface's material (materials.py:10-24); [None] is nan *)
  Definition surf_shade (gooch_of : surf -> gooch) (light : v4) (s : surf) (r : ray) (d : xr) : option rgba :=
    match d with
    | Fin t =>
        let p := vadd (origin r) (vscale t (direction r)) in
        match world_normal s p with
        | None => None
        | Some n => gooch_shade (gooch_of s) light p n
        end
    | _ => None
    end.
  (** renderers.py:212-224 for one pixel: zeros, then one pass over the surface table *)
  Definition shade_pixel (gooch_of : surf -> gooch) (light : v4) (lut : list (Z * surf)) (r : ray) (hit : xr * Z) : option rgba :=
    fold_left (fun px (e : Z * surf) => if (snd hit =? fst e)%Z then surf_shade gooch_of light (snd e) r (fst hit) else px)
              lut (Some (RGBA 0 0 0 0)).
  (** renderers.py:150-152 *)
  Definition render_lut (shapes : list shape) : list (Z * surf) :=
    flat_map (fun s => map (fun f => (s_id f, f)) (surface_ids s)) shapes.
End Sorting.

(** Cutting a list into rows of length [w]: [reshape(-1, w)] *)
Fixpoint rows_of {A : Type} (h w : nat) (l : list A) : list (list A) :=
  match h with
  | O => []
  | S h => firstn w l :: rows_of h w (skipn w l)
  end.

(** renderers.py:212-238 [ShadedRenderer.render]: the rows of pixels *)
Definition shaded_image (asort : list xr -> list nat) (gooch_of : surf -> gooch) (light : v4) (shapes : list shape) (c : camera)
  : option (list (list (option rgba))) :=
  match cam_rays c with
  | None => None
  | Some rays =>
      Some (rows_of (Z.to_nat (cam_v_pixels c)) (cam_h_pixels c)
              (map (fun r => shade_pixel gooch_of light (render_lut shapes) r (render_hit asort shapes r)) rays))
  end.

(** ** EdgeRender *)
(** [np.diff(row, prepend=p)] *)
Definition diff_prepend (p : Z) (row : list Z) : list Z :=
  map (fun q : Z * Z => (snd q - fst q)%Z) (combine (p :: row) row).
(** renderers.py:100: differences along each row *)
Definition h_diffs (m : list (list Z)) : list (list Z) := map (fun row => map Z.abs (diff_prepend (-1) row)) m.
(** renderers.py:101: differences down each column *)
Definition v_diffs (w : nat) (m : list (list Z)) : list (list Z) :=
  map (fun q : list Z * list Z => map (fun e : Z * Z => Z.abs (snd e - fst e)) (combine (fst q) (snd q)))
      (combine (repeat (-1)%Z w :: m) m).
Definition add_rows (a b : list (list Z)) : list (list Z) :=
  map (fun q : list Z * list Z => map (fun e : Z * Z => (fst e + snd e)%Z) (combine (fst q) (snd q))) (combine a b).
(** a boolean image by position; [false] outside *)
Definition at2 (m : list (list bool)) (i j : nat) : bool := nth j (nth i m []) false.
(** [scipy.ndimage.binary_dilation] with [generate_binary_structure(2, 2)], the full 3x3
    square, one iteration; outside the image counts as 0 *)
Definition dilate (h w : nat) (m : list (list bool)) : list (list bool) :=
  map (fun i => map (fun j =>
    existsb (fun i' => existsb (fun j' => at2 m i' j') (seq (Nat.pred j) (j + 2 - Nat.pred j))) (seq (Nat.pred i) (i + 2 - Nat.pred i)))
    (seq 0 w)) (seq 0 h).
(** renderers.py:104-108 *)
Definition edge_iterations (h w : nat) : nat := Nat.max 1 (Nat.max h w / 300).
Definition edge_mask (h w : nat) (ids : list Z) : list (list bool) :=
  let m := rows_of h w ids in
  let edges := map (map (fun d => negb (d =? 0)%Z)) (add_rows (h_diffs m) (v_diffs w m)) in
  Nat.iter (edge_iterations h w) (dilate h w) edges.
(** renderers.py:112-115 *)
Definition edge_pixel (e : bool) : rgba := if e then RGBA 0 0 0 1 else RGBA 1 1 1 0.
(** renderers.py:96-116 [EdgeRender.render]; an image without rows or columns is a
    ValueError *)
Definition edge_image (asort : list xr -> list nat) (shapes : list shape) (c : camera) : option (list (list rgba)) :=
  match cam_rays c with
  | None => None
  | Some rays =>
      let h := Z.to_nat (cam_v_pixels c) in
      let w := cam_h_pixels c in
      if ((h =? 0) || (w =? 0))%nat%bool then None
      else Some (map (map edge_pixel) (edge_mask h w (map (fun r => snd (render_hit asort shapes r)) rays)))
  end.

(** ** draw *)
(** world_objects.py:196-280: the world transform of a fresh object after these motions (the
    camera has no parts; World.v models the general case) *)
Fixpoint moved (m : mat) (os : list motion) : option mat :=
  match os with
  | [] => Some m
  | o :: r => match motion_matrix o with None => None | Some t => moved (mmul t m) r end
  end.

(** What is drawn: the camera, the light and the [extent] of the axes the image fills
    (left, right, bottom, top) *)
Record view : Type := View { v_camera : camera; v_light : v4; v_extent : R * R * R * R }.
Record corner : Type := Corner { cx : R; cy : R; cz : R }.

(** renderers.py:289, 323: the number of pixel columns *)
Definition draw_resolution (resolution : nat) (h_span v_span : R) : Z :=
  if rltb v_span h_span then Z.of_nat resolution else int_trunc (INR resolution * h_span / v_span).

(** renderers.py:285-316 [_draw_xy]; [None]: a flat scene, where the code divides by zero *)
Definition draw_xy (resolution : nat) (maxes mins : corner) : option view :=
  let ox := (cx maxes + cx mins) / 2 in
  let oy := (cy maxes + cy mins) / 2 in
  let oz := 15 / 10 * cz maxes in
  let h_span := 15 / 10 * (cx maxes - cx mins) in
  let v_span := 15 / 10 * (cy maxes - cy mins) in
  if (reqb h_span 0 || reqb v_span 0)%bool then None else
  match moved mid [RotY 90 Deg; RotZ 90 Deg; Move ox oy oz] with
  | None => None
  | Some m =>
      Some (View (Camera (Z.to_nat (draw_resolution resolution h_span v_span)) h_span (v_span / h_span) m)
                 (V4 (cx maxes) (cy maxes) (cz maxes * 3) 1)
                 (ox - h_span / 2, ox + h_span / 2, oy - v_span / 2, oy + v_span / 2))
  end.
(** renderers.py:319-349 [_draw_xz] *)
Definition draw_xz (resolution : nat) (maxes mins : corner) : option view :=
  let ox := (cx maxes + cx mins) / 2 in
  let oz := (cz maxes + cz mins) / 2 in
  let oy := 15 / 10 * cy maxes in
  let h_span := 15 / 10 * (cx maxes - cx mins) in
  let v_span := 15 / 10 * (cz maxes - cz mins) in
  if (reqb h_span 0 || reqb v_span 0)%bool then None else
  match moved mid [RotZ 90 Deg; Move ox oy oz] with
  | None => None
  | Some m =>
      Some (View (Camera (Z.to_nat (draw_resolution resolution h_span v_span)) h_span (v_span / h_span) m)
                 (V4 (cx maxes) (cy maxes * -3) (cz maxes) 1)
                 (ox - h_span / 2, ox + h_span / 2, oz - v_span / 2, oz + v_span / 2))
  end.
