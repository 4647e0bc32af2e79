(** * Ops: model of /repo/tinygfx/g3d/operations.py, one column at a time *)
From Coq Require Import Reals List Bool.
Import ListNotations.
From Verif Require Import XR Lin.
Open Scope R_scope.

(** operations.py:4-25 [smallest_positive_root] *)
Definition smallest_positive_root (a b c : R) : xr :=
  let disc := b * b - 4 * a * c in
  let root := sqrt (Rmax 0 disc) in
  let den := Fin (2 * a + b2r (isclose a 0)) in
  let p0 := xdiv (Fin (- b + root)) den in
  let p1 := xdiv (Fin (- b - root)) den in
  let nearest := if xleb (Fin 0) p1 then xmin p0 p1 else p0 in
  if (rleb 0 disc && xleb (Fin 0) nearest)%bool then nearest else PInf.

(** operations.py:28-63 [binomial_root] (disc=None) *)
Definition binomial_root (a b c : R) : xr * xr :=
  let disc := b * b - 4 * a * c in
  let linear := isclose a 0 in
  let root := sqrt (Rmax 0 disc) in
  let den := Fin (2 * a + b2r linear) in
  let p0 := xdiv (Fin (- b + root)) den in
  let p1 := xdiv (Fin (- b - root)) den in
  let '(p0, p1) := if rleb 0 disc then (p0, p1) else (PInf, PInf) in
  let lin := xdiv (Fin (- c)) (Fin (b + b2r (reqb b 0))) in
  let '(p0, p1) := if linear then (lin, lin) else (p0, p1) in
  let c_only := (linear && isclose b 0)%bool in
  let '(p0, p1) := if c_only then (PInf, PInf) else (p0, p1) in
  let p0 := if (c_only && rleb c 0)%bool then MInf else p0 in
  (p0, p1).

(** operations.py:86-107 [reflect], 1-D vector and 1-D normal (line 97):
    [vectors - normals * 2 * vectors.dot(normals)] *)
Definition reflect (v n : v4) : v4 := vsub v (vscale (vdot v n) (vscale 2 n)).

(** operations.py:100-102: many vectors (a list of columns), one normal;
    [np.tile(normals, (n, 1)).T] repeats the normal once per column. *)
Definition reflect_one_normal (vs : list v4) (n : v4) : list v4 :=
  let dots := map (fun v => vdot v n) vs in
  let tiled := repeat n (length vs) in
  map (fun q : v4 * (v4 * R) =>
         let '(v, (n', d)) := q in vsub v (vscale d (vscale 2 n')))
      (combine vs (combine tiled dots)).

(** operations.py:105-107: columns of vectors and columns of normals *)
Definition reflect_matrix (vs ns : list v4) : list v4 :=
  let dots := map (fun q : v4 * v4 => vdot (fst q) (snd q)) (combine vs ns) in
  map (fun q : v4 * (v4 * R) =>
         let '(v, (n', d)) := q in vsub v (vscale d (vscale 2 n')))
      (combine vs (combine ns dots)).

(** operations.py:110-162 [refract] on one column.  [None] stands for a result
    containing nan or inf (zero vector, zero index, zero result).
    Returns the new direction and the new refractive index. *)
Definition refract (v n : v4) (n1 n2 n_global : R) : option (v4 * R) :=
  match vnormalize v with                                  (* line 125 *)
  | None => None
  | Some v =>
      let cos_p := vdot v n in                             (* 126-128 *)
      let cos_n := vdot v (vopp n) in                      (* 129-131 *)
      let exiting := rltb 0 cos_p in
      let n2_local := if exiting then n_global else n2 in  (* 134 *)
      let nn := if exiting then vopp n else n in           (* 135-137 *)
      if Req_EM_T n2_local 0 then None else
      let r := n1 / n2_local in                            (* 138 *)
      let cos1 := if exiting then cos_p else cos_n in      (* 141 *)
      let radicand := 1 - (r * r) * (1 - cos1 * cos1) in   (* 144-146 *)
      let cos2 := sqrt (Rmax 0 radicand) in                (* 147-149 *)
      let refr :=
        if rltb 0 radicand
        then vadd (vscale r v) (vscale (r * cos1 - cos2) nn)
        else vadd v (vscale (2 * cos1) nn) in              (* 152-156 *)
      match vnormalize refr with                           (* 157 *)
      | None => None
      | Some d => Some (d, if rltb 0 radicand then n2_local else n1) (* 159-162 *)
      end
  end.
