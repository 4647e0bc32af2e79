(** * Components: model of the component factories of /repo/pyrayt/components.py

    A factory is modelled by the calls it makes on world objects.  Objects are named by
    the order in which the factory creates them, from 0; [shift n] names them in a heap
    that already holds [n] objects.
    SIMPLIFICATIONS: a surface that is created with the default material and then given
    another one before anything else looks at it is created with that one.  Keyword
    arguments are ordinary ones; their defaults are below. *)
From Coq Require Import Reals List Bool.
Import ListNotations.
From Verif Require Import XR Arr Lin Prim Csg Surf World.
Open Scope R_scope.

(** What a factory call comes to.  [NotANumber]: an infinite or nan number reaches a
    constructor or a matrix; what happens then is not modelled. *)
Inductive outcome : Type :=
| Makes (prog : list call) (result : loc)
| TypeError
| NotANumber.

Arguments CMotion _%nat _.
Arguments CCsg _ _%nat _%nat.
Arguments Makes _ _%nat.

Definition shift (n : nat) (c : call) : call :=
  match c with
  | CGroup ms => CGroup (map (Nat.add n) ms)
  | CSetMembers g ms => CSetMembers (n + g)%nat (map (Nat.add n) ms)
  | CCsg op l r => CCsg op (n + l)%nat (n + r)%nat
  | CMotion l o => CMotion (n + l)%nat o
  | CInvert l => CInvert (n + l)%nat
  | CReset l => CReset (n + l)%nat
  | c => c
  end.

(** An aperture argument: a number, or a tuple of two. *)
Inductive aperture_arg : Type := Round (d : R) | Pair (a b : R).
(** components.py:23, 242: the defaults of the keyword arguments *)
Definition default_aperture : aperture_arg := Round 1.
Definition default_off_axis : R * R := (0, 0).

(** components.py:31-53 [_create_aperture]; [None] is TypeError.  Two negative numbers:
    the name [aperture] is bound to the new cylinder, and indexing that raises TypeError
    as well. *)
Definition create_aperture (ap : aperture_arg) (thickness : R) : option prim :=
  match ap with
  | Round d => Some (PCylinder (d / 2) (- thickness / 2) (thickness / 2) true)
  | Pair a b =>
      if (rltb 0 a && rltb 0 b)%bool then
        Some (PCube (- a / 2, - b / 2, - thickness / 2) (a / 2, b / 2, thickness / 2))
      else None
  end.

(** [np.sqrt]; [None] is nan *)
Definition np_sqrt (x : R) : option R := if rleb 0 x then Some (sqrt x) else None.

(** components.py:141-147 *)
Definition max_height (ap : aperture_arg) : R :=
  match ap with Round d => d / 2 | Pair a b => sqrt (a * a + b * b) / 2 end.
(** components.py:150-156: half the thickness, and the depth of a concave side *)
Definition side_thickness (concave : R -> bool) (r : xr) (thickness h : R) : option R :=
  match r with
  | Fin r => if concave r
             then option_map (fun s => thickness / 2 + (Rabs r - s)) (np_sqrt (Rabs r * Rabs r - h * h))
             else Some (thickness / 2)
  | _ => Some (thickness / 2)
  end.
(** components.py:130-163 [_lens_full_thickness]: total thickness and shift *)
Definition lens_full_thickness (r1 r2 : xr) (thickness : R) (ap : aperture_arg) : option (R * R) :=
  match side_thickness (fun r => rltb r 0) r1 thickness (max_height ap),
        side_thickness (fun r => rltb 0 r) r2 thickness (max_height ap) with
  | Some left_thickness, Some right_thickness =>
      Some (right_thickness + left_thickness, right_thickness - left_thickness)
  | _, _ => None
  end.

(** components.py:25, 244: [.rotate_y(90).rotate_x(90)], applied by both decorators *)
Definition turned (o : outcome) : outcome :=
  match o with
  | Makes prog l => Makes (prog ++ [CMotion l (RotY 90 Deg); CMotion l (RotX 90 Deg)]) l
  | o => o
  end.

(** components.py:103-113 and 116-126: one side of a thick lens.  The lens so far is the
    last object made, so are the new sphere and the result. *)
Definition lens_side (convex : R -> bool) (r : xr) (centre : R -> R) (m : material)
    (lens : list call * loc) : list call * loc :=
  match r with
  | Fin r => (fst lens ++ [CSurface (PSphere r) m; CMotion (S (snd lens)) (op_move_z (centre r));
                           CCsg (if convex r then INTERSECT else DIFFERENCE) (snd lens) (S (snd lens))],
              S (S (snd lens)))
  | _ => lens
  end.
(** components.py:73-127 [thick_lens] *)
Definition thick_lens (r1 r2 : xr) (thickness : R) (ap : aperture_arg) (m : material) : outcome :=
  turned
  match lens_full_thickness r1 r2 thickness ap with
  | None => match create_aperture ap 0 with None => TypeError | Some _ => NotANumber end
  | Some (aperture_thickness, aperture_offset) =>
      match create_aperture ap aperture_thickness with
      | None => TypeError
      | Some p =>
          let lens := ([CSurface p m; CMotion 0 (op_move_z (aperture_offset / 2))], 0%nat) in
          let lens := lens_side (fun r => rltb 0 r) r1 (fun r => r - thickness / 2) m lens in
          let lens := lens_side (fun r => rltb r 0) r2 (fun r => r + thickness / 2) m lens in
          Makes (fst lens) (snd lens)
      end
  end.

(** components.py:166-198 [biconvex_lens]; an infinite radius reaches [move_z]. *)
Definition biconvex_lens (r1 r2 : xr) (thickness : R) (ap : aperture_arg) (m : material) : outcome :=
  turned
  match create_aperture ap thickness with
  | None => TypeError
  | Some p =>
      match r1, r2 with
      | Fin r1, Fin r2 =>
          Makes [CSurface p m;
                 CSurface (PSphere r2) m; CMotion 1 (op_move_z (r1 - thickness / 2));
                 CSurface (PSphere r1) m; CMotion 2 (op_move_z (- (r1 - thickness / 2)));
                 CCsg INTERSECT 1 2; CCsg INTERSECT 3 0] 4
      | _, _ => NotANumber
      end
  end.

(** components.py:201-229 [plano_convex_lens] *)
Definition plano_convex_lens (r : xr) (thickness : R) (ap : aperture_arg) (m : material) : outcome :=
  turned
  match create_aperture ap thickness with
  | None => TypeError
  | Some p =>
      match r with
      | Fin r => Makes [CSurface p m; CSurface (PSphere r) m; CMotion 1 (op_move_z (- (r - thickness / 2)));
                        CCsg INTERSECT 1 0] 2
      | _ => NotANumber
      end
  end.

(** components.py:250-266 [plane_mirror] *)
Definition plane_mirror (thickness : R) (ap : aperture_arg) (off : R * R) (m : material) : outcome :=
  turned
  match create_aperture ap thickness with
  | None => TypeError
  | Some p => Makes [CSurface p m; CMotion 0 (Move (fst off) (snd off) 0)] 0
  end.

(** components.py:269-326 [spherical_mirror].  A radius of zero leaves [mirror_surface]
    unbound (UnboundLocalError), as nan and the infinities do or give nan. *)
Definition spherical_mirror (radius : xr) (thickness : R) (ap : aperture_arg) (off : R * R)
    (m : material) : outcome :=
  turned
  match create_aperture ap 0, radius with
  | None, _ => TypeError
  | Some _, Fin r =>
      let l := sqrt (fst off * fst off + snd off * snd off) in
      let dl := max_height ap in
      match np_sqrt (r * r - (l + dl) * (l + dl)) with
      | None => NotANumber
      | Some s =>
          let front := Rabs r - s in
          let total := front + thickness in
          match create_aperture ap (thickness + front) with
          | None => TypeError
          | Some p =>
              if Req_EM_T r 0 then NotANumber else
              Makes [CSurface p Absorber; CMotion 0 (Move (fst off) (snd off) 0);
                     CSurface (PSphere (if rltb 0 r then r else Rabs r)) m; CMotion 1 (op_move_z r);
                     CMotion 0 (op_move_z (if rltb 0 r then total / 2 - thickness else thickness - total / 2));
                     CCsg DIFFERENCE 0 1] 2
          end
      end
  | Some _, _ => NotANumber
  end.

(** components.py:350-398 [parabolic_mirror]; a focus of zero divides by zero *)
Definition parabolic_mirror (focus thickness : R) (ap : aperture_arg) (off : R * R) (m : material) : outcome :=
  turned
  (let norm2 (a b : R) := sqrt (a * a + b * b) in
   let furthest := match ap with
                   | Pair a b => norm2 (Rabs (fst off) + a / 2) (Rabs (snd off) + b / 2)
                   | Round d => norm2 (fst off) (snd off) + d
                   end in
   if Req_EM_T focus 0 then NotANumber else
   let front := 1 / (4 * focus) * (furthest * furthest) in
   let total := thickness + front in
   match create_aperture ap total with
   | None => TypeError
   | Some p =>
       Makes [CSurface p Absorber; CMotion 0 (Move (fst off) (snd off) 0);
              CMotion 0 (op_move_z (total / 2 - thickness));
              CSurface (PParaboloid focus (15 / 10 * front)) m;
              CCsg DIFFERENCE 0 1; CMotion 2 (op_move_z (- focus))] 2
   end).

(** world_objects.py:475-478 [Cuboid.from_sides] *)
Definition from_sides (x y z : R) : prim := PCube (- x / 2, - y / 2, - z / 2) (x / 2, y / 2, z / 2).
(** components.py:401-436 [equilateral_prism] *)
Definition equilateral_prism (side width : R) (m : material) : outcome :=
  let s60 := sin (60 * PI / 180) in
  let cut := 11 / 10 * side / s60 in
  Makes [CSurface (from_sides side width side) m;
         CSurface (from_sides cut (11 / 10 * width) cut) m;
         CMotion 1 (Move (- cut / 2) 0 (cut / 2)); CMotion 1 (RotY 30 Deg);
         CMotion 1 (Move (- side / 2) 0 (- side / 2));
         CCsg DIFFERENCE 0 1;
         CSurface (from_sides cut (11 / 10 * width) cut) m;
         CMotion 3 (Move (cut / 2) 0 (cut / 2)); CMotion 3 (RotY (-30) Deg);
         CMotion 3 (Move (side / 2) 0 (- side / 2));
         CCsg DIFFERENCE 2 3; CMotion 4 (op_move_z (side / 2 * (1 - s60)))] 4.

(** components.py:439-448 [baffle]: indexing a number raises TypeError *)
Definition baffle (ap : aperture_arg) : outcome :=
  match ap with
  | Round _ => TypeError
  | Pair a b => Makes [CSurface (PPlane a b) Absorber; CMotion 0 (RotY 90 Deg)] 0
  end.

(** components.py:451-468 [aperture].  The cutter keeps the default material, which cannot
    be traced. *)
Definition aperture (size opening : aperture_arg) : outcome :=
  match baffle size, create_aperture opening (1 / 10) with
  | Makes prog l, Some p =>
      Makes (prog ++ [CMotion l (RotY (-90) Deg); CSurface p Untraceable; CCsg DIFFERENCE l 1;
                      CMotion 2 (RotY 90 Deg); CMotion 2 (RotX (-90) Deg)]) 2
  | _, _ => TypeError
  end.
