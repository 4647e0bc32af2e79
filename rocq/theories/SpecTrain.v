(** * SpecTrain: what the theorems about several lenses on one axis say
    Specification only. *)
From Coq Require Import Reals List ZArith.
Import ListNotations.
From Verif Require Import XR Arr Lin Prim Surf World SpecWorld Components SpecComponents SpecSymmetry SpecUtils SpecGauss Tracer.
Open Scope R_scope.

(** The call that makes a lens: thick_lens(r1, r2, t, …), biconvex_lens(r1, r2, t, …) or plano_convex_lens(r, t, …) *)
Inductive maker : Type := ThickLens (r1 r2 : xr) (t : R) | BiconvexLens (r1 r2 t : R) | PlanoConvexLens (r t : R).
(** A lens of a train: how it is made, its aperture and index, and where it is moved to along the axis *)
Record lens : Type := Lens { l_by : maker; l_ap : aperture_arg; l_index : R -> xr; l_at : R }.
(** …_lens(…, ap, material).move_x(at) *)
Definition lens_call (l : lens) : outcome :=
  standing_at (l_at l)
    match l_by l with
    | ThickLens r1 r2 t => thick_lens r1 r2 t (l_ap l) (Refractor (l_index l))
    | BiconvexLens r1 r2 t => biconvex_lens (Fin r1) (Fin r2) t (l_ap l) (Refractor (l_index l))
    | PlanoConvexLens r t => plano_convex_lens (Fin r) t (l_ap l) (Refractor (l_index l))
    end.
(** The radii of its two faces, with the sign of [thick_lens], and its vertices.  What [biconvex_lens] makes
    is curved by [r2] in front and by [r1] behind.  It keeps its thickness only if r1 = r2: for r1 > r2 the
    front vertex lies r1 - r2 further in, and for r1 < r2 the flat end of the aperture is in front. *)
Definition l_r1 (l : lens) : xr :=
  match l_by l with ThickLens r1 _ _ => r1 | BiconvexLens r1 r2 _ => if rltb r1 r2 then PInf else Fin r2 | PlanoConvexLens _ _ => PInf end.
Definition l_r2 (l : lens) : xr :=
  match l_by l with ThickLens _ r2 _ => r2 | BiconvexLens r1 _ _ => Fin (- r1) | PlanoConvexLens r _ => Fin (- r) end.
Definition front_of (l : lens) : R :=
  match l_by l with
  | ThickLens _ _ t => l_at l - t / 2
  | BiconvexLens r1 r2 t => if rltb r1 r2 then l_at l - t / 2 else l_at l - t / 2 + (r1 - r2)
  | PlanoConvexLens _ t => l_at l - t / 2
  end.
Definition back_of (l : lens) : R :=
  match l_by l with ThickLens _ _ t => l_at l + t / 2 | BiconvexLens _ _ t => l_at l + t / 2 | PlanoConvexLens _ t => l_at l + t / 2 end.
(** From vertex to vertex *)
Definition l_t (l : lens) : R :=
  match l_by l with ThickLens _ _ t => t | BiconvexLens r1 r2 t => if rltb r1 r2 then t else t - (r1 - r2) | PlanoConvexLens _ t => t end.
(** Arguments that describe a lens *)
Definition lens_ok (l : lens) : Prop :=
  ap_ok (l_ap l) /\ rim_clear (l_ap l) /\
  match l_by l with
  | ThickLens r1 r2 t => lens_fits r1 r2 t (reach (l_ap l))
  | BiconvexLens r1 r2 t => 0 < r1 /\ 0 < r2 /\ t < 2 * r1 /\ t < r1 + r2 /\ 1 / 1000000 < l_t l
  | PlanoConvexLens r t => 0 < r /\ t < 2 * r /\ 1 / 1000000 < t
  end.

(** [s] is the object that the calls of [o] made, in a program that had done something before. *)
Definition made (asort : list xr -> list nat) (o : outcome) (s : shape) : Prop :=
  exists prog l h h', o = Makes prog l /\ nice asort h /\
    run_prog asort (map (shift (length (h_objs h))) prog) h = Ok h' /\ shape_of h' (length (h_objs h) + l)%nat = Some s.

(** From [x] on, the lenses stand behind one another, with air between, and the screen at [d] behind them all. *)
Fixpoint in_line (x : R) (ls : list lens) (d : R) : Prop :=
  match ls with
  | [] => x < d
  | l :: ls => x < front_of l /\ in_line (back_of l + ray_offset_value) ls d
  end.

(** Gaussian optics of the train between [x] and the screen at [d], for one wavelength: its matrix is the
    product of the matrices of the lenses and of the air between them; [ns] are the indices on the way. *)
Inductive gaussian (wl d : R) : R -> list lens -> m2 -> list R -> Prop :=
| G_air : forall x, gaussian wl d x [] (travel (d - x)) [1]
| G_lens : forall x l ls k1 k2 n a ns, curvature (l_r1 l) k1 -> curvature (l_r2 l) k2 -> l_index l wl = Fin n -> 0 < n ->
    gaussian wl d (back_of l) ls a ns ->
    gaussian wl d x (l :: ls) (m2_mul a (m2_mul (lens_matrix k1 k2 n (l_t l)) (travel (front_of l - x)))) (1 :: n :: ns).
(** The slope behind a system with this matrix, of the ray with height [h] and slope [u] before it *)
Definition slope_of (a : m2) (h u : R) : R := mC a * h + mD a * u.
