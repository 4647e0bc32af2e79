(** * SpecLight: faces turned to the viewer of a drawing
    Specification only. *)
From Coq Require Import Reals List Bool ZArith.
From Verif Require Import XR Lin Prim Csg Surf World Tracer Render SpecRender Renderers Utils Show.
Open Scope R_scope.

(** The direction to the viewer: up in the xy view, against +y in the xz view *)
Definition to_viewer (v : view_name) : v4 := match v with XZ => V4 0 (-1) 0 0 | _ => V4 0 0 1 0 end.
(** The colours a material mixes *)
Definition warm_tone (g : gooch) : rgba := mixed (g_alpha g) (g_base g) (g_warm g).
Definition cool_tone (g : gooch) : rgba := mixed (g_beta g) (g_base g) (g_cool g).
(** The point lies further from the viewer than the light stands, which is three times as high as the highest point of
    the scene, or at minus three times the largest y of the scene *)
Definition behind_the_light (v : view_name) (maxes : corner) (p : v4) : Prop :=
  match v with XZ => - 3 * cy maxes < vy p | _ => vz p < 3 * cz maxes end.
(** The light stands at the point itself. *)
Definition at_the_light (v : view_name) (maxes : corner) (p : v4) : Prop :=
  (vx p, vy p, vz p) = match v with XZ => (cx maxes, - 3 * cy maxes, cz maxes) | _ => (cx maxes, cy maxes, 3 * cz maxes) end.
