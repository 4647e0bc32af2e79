(** * Renderers: model of the two renderer objects
    /repo/tinygfx/g3d/renderers.py:11-126 (EdgeRender) and 129-248 (ShadedRenderer) *)
From Coq Require Import Reals List Bool ZArith.
Import ListNotations.
From Verif Require Import XR Arr Lin Prim Csg Surf World Tracer Sources Render.
Open Scope R_scope.

(** The class; a ShadedRenderer keeps the position of its light (renderers.py:145). *)
Inductive renderer_kind : Type := EdgeKind | ShadedKind (light : v4).
(** renderers.py:14-20, 130-136; TRIM is never entered *)
Inductive renderer_state : Type := R_IDLE | R_INITIALIZE | R_PROPAGATE | R_INTERACT | R_FINISH.
Definition picture : Type := list (list (option rgba)).
(** renderers.py:22-36, 138-160: the attributes.  The camera is passed to [render] as it
    stands at the call; the shapes are references, read at the call.  [rn_rays] and
    [rn_hits] stand for _rays, _hit_distances and _hit_surfaces. *)
Record renderer : Type := Renderer {
  rn_kind : renderer_kind;
  rn_shapes : list loc;
  rn_lut : list (Z * loc);
  rn_state : renderer_state;
  rn_complete : bool;
  rn_results : option picture;
  rn_rays : list ray;
  rn_hits : list (xr * Z)
}.
(** renderers.py:22-36 and 138-160.  Only ShadedRenderer reads [surface_ids] (151-152);
    [None] is the AttributeError of a shape without surfaces. *)
Definition new_renderer (h : heap) (kind : renderer_kind) (shapes : list loc) : option renderer :=
  match kind with
  | EdgeKind => Some (Renderer kind shapes [] R_IDLE false None [] [])
  | ShadedKind _ =>
      match collect (map (lut_of h) shapes) with
      | None => None
      | Some luts => Some (Renderer kind shapes (concat luts) R_IDLE false None [] [])
      end
  end.
Definition with_state (s : renderer_state) (r : renderer) : renderer :=
  Renderer (rn_kind r) (rn_shapes r) (rn_lut r) s (rn_complete r) (rn_results r) (rn_rays r) (rn_hits r).
(** renderers.py:38-41, 162-165 *)
Definition reset_renderer (r : renderer) : renderer :=
  Renderer (rn_kind r) (rn_shapes r) (rn_lut r) R_IDLE false None (rn_rays r) (rn_hits r).
(** EdgeRender.get_results (renderers.py:55-61) reads an attribute [_frame] that is never
    set: see Attributes.v. *)

(** What one state leaves behind *)
Inductive renderer_step : Type := RGo (r : renderer) | RFail (e : exn) (r : renderer).
(** What a call of [render] returns, and the renderer after it.  [RenderFuel]: not finished
    after the given number of states. *)
Inductive rendered : Type :=
| RenderOk (result : option picture) (r : renderer)
| RenderRaises (e : exn) (r : renderer)
| RenderFuel.

Section Renderer.
  Variable asort : list xr -> list nat.
  Variable gooch_of : surf -> gooch.
  Variable h : heap.
  Variable c : camera.

  (** renderers.py:63-70, 179-186 *)
  Definition rst_initialize (r : renderer) : renderer_step :=
    let r := reset_renderer r in
    match cam_rays c with
    | None => RFail ValueError r
    | Some rays =>
        RGo (Renderer (rn_kind r) (rn_shapes r) (rn_lut r) R_PROPAGATE (rn_complete r) (rn_results r) rays (rn_hits r))
    end.
  (** renderers.py:72-94, 188-210 *)
  Definition rst_propagate (r : renderer) : renderer_step :=
    match collect (map (shape_of h) (rn_shapes r)) with
    | None => RFail AttributeError r
    | Some shapes =>
        RGo (Renderer (rn_kind r) (rn_shapes r) (rn_lut r) R_INTERACT (rn_complete r) (rn_results r) (rn_rays r)
                      (map (render_hit asort shapes) (rn_rays r)))
    end.
  (** renderers.py:96-116, 212-238.  An image without rows or columns: ValueError in
      EdgeRender, as in [edge_image]. *)
  Definition rst_interact (r : renderer) : renderer_step :=
    let rows := Z.to_nat (cam_v_pixels c) in
    let columns := cam_h_pixels c in
    let done (p : picture) :=
      RGo (Renderer (rn_kind r) (rn_shapes r) (rn_lut r) R_FINISH (rn_complete r) (Some p) (rn_rays r) (rn_hits r)) in
    match rn_kind r with
    | EdgeKind =>
        if ((rows =? 0) || (columns =? 0))%nat%bool then RFail ValueError r
        else done (map (map (fun e => Some (edge_pixel e))) (edge_mask rows columns (map snd (rn_hits r))))
    | ShadedKind light =>
        match collect (map (entry_of h) (rn_lut r)) with
        | None => RFail AttributeError r
        | Some lut =>
            done (rows_of rows columns
                    (map (fun q : ray * (xr * Z) => shade_pixel gooch_of light lut (fst q) (snd q))
                         (combine (rn_rays r) (rn_hits r))))
        end
    end.
  (** renderers.py:124-126, 246-248 *)
  Definition rst_finish (r : renderer) : renderer_step :=
    RGo (Renderer (rn_kind r) (rn_shapes r) (rn_lut r) R_IDLE true (rn_results r) (rn_rays r) (rn_hits r)).

  (** renderers.py:47-53, 171-177: the loop; [fuel] bounds the number of states run *)
  Fixpoint run_renderer (fuel : nat) (r : renderer) : rendered :=
    match rn_state r with
    | R_IDLE => RenderOk (rn_results r) r
    | s =>
        match fuel with
        | O => RenderFuel
        | S fuel =>
            match (match s with
                   | R_INITIALIZE => rst_initialize r
                   | R_PROPAGATE => rst_propagate r
                   | R_INTERACT => rst_interact r
                   | _ => rst_finish r
                   end) with
            | RFail e r => RenderRaises e r
            | RGo r => run_renderer fuel r
            end
        end
    end.
  (** renderers.py:43-53, 167-177 [render] *)
  Definition render (fuel : nat) (r : renderer) : rendered := run_renderer fuel (with_state R_INITIALIZE r).
End Renderer.
