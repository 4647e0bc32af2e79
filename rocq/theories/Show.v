(** * Show: model of renderers.draw and of RayTracer.show
    /repo/tinygfx/g3d/renderers.py:251-349 and /repo/pyrayt/_pyrayt.py:458-536 *)
From Coq Require Import Reals List Bool ZArith.
Import ListNotations.
From Verif Require Import XR Arr Lin Prim Csg Surf World Tracer Sources Render Utils.
Open Scope R_scope.

(** ** draw *)
Definition finite (x : xr) : option R := match x with Fin r => Some r | _ => None end.
(** renderers.py:263-265, one axis: the values of this coordinate among the bounding points
    of all components.  A box has eight of them (primitives.py:512-514), the two ends of the
    span four times each; here once each.  [None]: one of them is not finite. *)
Definition axis_values (span : box -> xr * xr) (shapes : list shape) : option (list R) :=
  collect (map finite (flat_map (fun s => let sp := span (shape_box s) in [fst sp; snd sp]) shapes)).
(** renderers.py:270-271: mins and maxes *)
Definition scene_corners (shapes : list shape) : option (corner * corner) :=
  match axis_values spanx shapes, axis_values spany shapes, axis_values spanz shapes with
  | Some xs, Some ys, Some zs =>
      Some (Corner (list_min xs) (list_min ys) (list_min zs), Corner (list_max xs) (list_max ys) (list_max zs))
  | _, _, _ => None
  end.

(** renderers.py:278-282: the value of [view] *)
Inductive view_name : Type := XY | XZ | OtherView.

(** What [draw] leaves in the axes: an image that fills an extent, or nothing; or it raises.
    [DrawUnbounded]: a flat or unbounded scene (or bounds the wrong way round), where the
    code divides by zero or asks for a camera without size; not followed further. *)
Inductive drawn : Type :=
| Drawn (image : list (list (option rgba))) (extent : R * R * R * R)
| DrewNothing
| DrawRaises (e : exn)
| DrawUnbounded.

(** renderers.py:297-315 and 331-348: render the view, [imshow] the image.  A missing
    image is the ValueError of an image without rows or columns. *)
Definition draw_view (asort : list xr -> list nat) (gooch_of : surf -> gooch) (shapes : list shape)
    (shaded : bool) (v : option view) : drawn :=
  match v with
  | None => DrawUnbounded
  | Some v =>
      match (if shaded then shaded_image asort gooch_of (v_light v) shapes (v_camera v)
             else option_map (map (map Some)) (edge_image asort shapes (v_camera v))) with
      | None => DrawRaises ValueError
      | Some image => Drawn image (v_extent v)
      end
  end.

(** renderers.py:251-282 [draw(surfaces, view, axis, shaded, bounds, resolution)]; a single
    surface is a list of one (259-260).  np.hstack of an empty list raises (263). *)
Definition draw (asort : list xr -> list nat) (gooch_of : surf -> gooch) (shapes : list shape)
    (v : view_name) (shaded : bool) (bounds : option (corner * corner)) (resolution : nat) : drawn :=
  match shapes with
  | [] => DrawRaises ValueError
  | _ =>
      let corners := match bounds with Some b => Some b | None => scene_corners shapes end in
      match v, corners with
      | OtherView, _ => DrewNothing
      | _, None => DrawUnbounded
      | XY, Some (mins, maxes) =>
          if (rltb (cx mins) (cx maxes) && rltb (cy mins) (cy maxes))%bool
          then draw_view asort gooch_of shapes shaded (draw_xy resolution maxes mins) else DrawUnbounded
      | XZ, Some (mins, maxes) =>
          if (rltb (cx mins) (cx maxes) && rltb (cz mins) (cz maxes))%bool
          then draw_view asort gooch_of shapes shaded (draw_xz resolution maxes mins) else DrawUnbounded
      end
  end.

(** ** RayTracer.show *)
(** _pyrayt.py:477-496: [color_function]; any other value is [Uniform] *)
Inductive colouring : Type := Uniform | ByWavelength | BySource.
(** "C0", or a colour *)
Inductive ink : Type := C0 | Ink (c : rgb).
(** One arrow of [axis.quiver(x, y, u, v, scale=1, units="x")]; with the equal aspect set in
    line 523 matplotlib draws it from (x, y) to (x + u, y + v). *)
Record arrow : Type := Arrow { a_x : R; a_y : R; a_u : R; a_v : R; a_ink : ink }.

(** _pyrayt.py:486-494: the loop over the colours of the sources, for the row of one ray;
    [n] counts the colours, [color] is what the row holds so far *)
Fixpoint pick_source (colours : list rgb) (n rays_per_source id : nat) (color : rgb) : rgb :=
  match colours with
  | [] => color
  | this :: rest =>
      pick_source rest (S n) rays_per_source id
        (if ((n * rays_per_source <=? id)%nat && (id <? (n + 1) * rays_per_source)%nat)%bool then this else color)
  end.
(** The default of [gamma] (utils.py:5) *)
Definition default_gamma : R := 8 / 10.
(** _pyrayt.py:476-496: the colours of the rows.  [junk] is what np.empty holds: for the
    rows (line 485) and inside wavelength_to_rgb (utils.py:17). *)
Definition row_inks (junk : nat -> rgb) (how : colouring) (t : tracer) : option (list ink) :=
  let rows := f_rows (t_frame t) in
  match how with
  | Uniform => Some (map (fun _ => C0) rows)
  | ByWavelength =>
      option_map (map Ink) (wavelength_to_rgb junk (Array (map row_wl rows)) default_gamma)
  | BySource =>
      match wavelength_to_rgb junk (Array (linspace (45 / 100) (65 / 100) (length (t_sources t)))) default_gamma with
      | None => None
      | Some colours =>
          Some (map (fun q : nat * row => Ink (pick_source colours 0 (t_n t) (row_id (snd q)) (junk (fst q))))
                    (combine (seq 0 (length rows)) rows))
      end
  end.

(** _pyrayt.py:507-513: the two columns of the frame a view uses *)
Definition axes_of (v : view_name) : option ((v4 -> R) * (v4 -> R)) :=
  match v with XY => Some (vx, vy) | XZ => Some (vx, vz) | OtherView => None end.
(** _pyrayt.py:520-533: u and v are end minus start *)
Definition arrow_of (ax : (v4 -> R) * (v4 -> R)) (q : row * ink) : arrow :=
  let '(f, g) := ax in
  let w := fst q in
  Arrow (f (row_start w)) (g (row_start w)) (f (row_end w) - f (row_start w)) (g (row_end w) - g (row_start w)) (snd q).

(** What [show] leaves in the axes: the picture of the components and, after a trace, the
    arrows of the rays ([None]: quiver is not called); or the exception it ends with *)
Inductive shown : Type :=
| Shown (image : list (list (option rgba))) (extent : R * R * R * R) (rays : option (list arrow))
| ShowRaises (e : exn)
| ShowUnboundLocal   (* UnboundLocalError: no view was chosen (line 515) *)
| ShowUnbounded.     (* see [DrawUnbounded] *)

Section Show.
  Variable asort : list xr -> list nat.
  Variable gooch_of : surf -> gooch.
  Variable h : heap.
  Variable junk : nat -> rgb.

  (** _pyrayt.py:458-536 [show(view, axis, color_function, ray_width, **kwargs)].  [shaded]
      is False unless given (line 498); bounds and resolution go to [draw].  A component that
      is not intersectable has no bounding_volume (AttributeError).  plt.gca() and plt.show()
      are not modelled. *)
  Definition show (v : view_name) (how : colouring) (shaded : bool) (bounds : option (corner * corner))
      (resolution : nat) (t : tracer) : shown :=
    match row_inks junk how t, collect (map (shape_of h) (t_comps t)) with
    | None, _ => ShowRaises ValueError
    | _, None => ShowRaises AttributeError
    | Some inks, Some comps =>
        match draw asort gooch_of comps v shaded bounds resolution, axes_of v with
        | DrawRaises e, _ => ShowRaises e
        | DrawUnbounded, _ => ShowUnbounded
        | _, None | DrewNothing, _ => ShowUnboundLocal
        | Drawn image extent, Some ax =>
            Shown image extent
              (if t_complete t then Some (map (arrow_of ax) (combine (f_rows (t_frame t)) inks)) else None)
        end
    end.
End Show.
