(** * BatchSources: the array code of the sources (/repo/pyrayt/components.py:471-654) *)
From Coq Require Import Reals List Bool ZArith Arith.
Import ListNotations.
From Verif Require Import XR Lin World Tracer Sources Batch BatchOps RaySet BatchTracer.
Open Scope R_scope.

(** a one dimensional array *)
Definition values (xs : list R) : value := Values (length xs) (fun j => nth j xs 0).
(** [rayset.rays[k, axis] = v] and [rayset.wavelength = v]; [None]: shape mismatch *)
Definition write (f : field) (v : value) (rs : option (arr R)) : option (arr R) := bind rs (set f v).

Section Random.
  Variable rnd : nat -> R. (* the numbers np.random hands out *)

  (** The [_local_ray_generation] methods: components.py:516-530 LineOfRays, 545-558
      CircleOfRays, 575-585 ConeOfRays, 600-613 WedgeOfRays, 637-654 Lamp *)
  Definition batch_local_rays (s : source) (wl : R) (p n : nat) : option (arr R) :=
    let rayset := new_set n in
    match s with
    | LineOfRays spacing =>
        let rayset := if Nat.ltb 1 n
                      then write (Coord 0 1) (values (linspace (- spacing / 2) (spacing / 2) n)) rayset
                      else rayset in
        let rayset := write (Coord 1 0) (Scalar 1) rayset in
        write Wavelength (Scalar wl) rayset
    | CircleOfRays diameter =>
        let theta := linspace 0 (2 * PI) n in
        let rayset := write (Coord 0 1) (values (map (fun t => diameter / 2 * sin t) theta)) rayset in
        let rayset := write (Coord 0 2) (values (map (fun t => diameter / 2 * cos t) theta)) rayset in
        let rayset := write (Coord 1 0) (Scalar 1) rayset in
        write Wavelength (Scalar wl) rayset
    | ConeOfRays cone_angle =>
        let angle := radians cone_angle in
        let rayset :=
          if Nat.ltb 1 n then
            let angles := map (fun i => 2 * PI * INR i / INR n) (seq 0 n) in
            let rayset := write (Coord 1 1) (values (map (fun a => sin angle * sin a) angles)) rayset in
            write (Coord 1 2) (values (map (fun a => sin angle * cos a) angles)) rayset
          else rayset in
        let rayset := write (Coord 1 0) (Scalar (cos angle)) rayset in
        write Wavelength (Scalar wl) rayset
    | WedgeOfRays wedge_angle =>
        let angle := radians wedge_angle in
        let angles := linspace (- angle / 2) (angle / 2) n in
        let rayset := write (Coord 1 0) (values (map cos angles)) rayset in
        let rayset := write (Coord 1 1) (values (map sin angles)) rayset in
        write Wavelength (Scalar wl) rayset
    | Lamp w l max_angle =>
        let rayset := write Wavelength (Scalar wl) rayset in
        let '(theta, phi) := sphere_sample rnd p n (radians max_angle) in
        let rayset := write (Coord 0 1) (values (map (fun u => w * (u - 1 / 2)) (random_sample rnd (p + 2 * n) n))) rayset in
        let rayset := write (Coord 0 2) (values (map (fun u => l * (u - 1 / 2)) (random_sample rnd (p + 3 * n) n))) rayset in
        let rayset := write (Coord 1 0) (values (map cos theta)) rayset in
        let rayset := write (Coord 1 1) (values (map (fun q : R * R => sin (fst q) * cos (snd q)) (combine theta phi))) rayset in
        let rayset := write (Coord 1 2) (values (map (fun q : R * R => sin (fst q) * sin (snd q)) (combine theta phi))) rayset in
        write Intensity (values (map (fun t => 100 * cos t) theta)) rayset
    end.

  (** components.py:481-497 [Source.generate_rays] of a source with world transform [m].
      [None]: the set contains inf or nan. *)
  Definition batch_generate (s : source) (wl : R) (m : mat) (p n : nat) : option (arr R) :=
    bind (batch_local_rays s wl p n) (fun ray_set =>
    let before := amap Fin ray_set in
    let ray_set := set_part 1 (matmul m (part 1 before)) (set_part 0 (matmul m (part 0 before)) before) in
    let ray_set := set_part 1 (normalize0 (part 1 ray_set)) ray_set in
    if finite_values ray_set then Some (to_real ray_set) else None).
End Random.
