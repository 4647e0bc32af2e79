(** * Sources: model of the sources of /repo/pyrayt/components.py
    A source is a plain world object (World.v) with parameters; [generate_rays] reads its
    current world transform.  A RaySet is the list of its columns (Tracer.v). *)
From Coq Require Import Reals List Bool ZArith.
Import ListNotations.
From Verif Require Import XR Lin World Tracer.
Open Scope R_scope.

(** [np.linspace(a, b, n)].  numpy computes [a + i * step] with [step = (b - a) / (n - 1)],
    and for n = 1 returns [a].  (The last element, overwritten with [b], is equal to it in
    exact arithmetic.) *)
Definition linspace (a b : R) (n : nat) : list R :=
  map (fun i => a + INR i * ((b - a) / INR (n - 1))) (seq 0 n).

(** _pyrayt.py:20-43 [RaySet(n)] and primitives.py:18-28 [bundle_of_rays]: points at the
    origin, zero directions, and the default metadata *)
Definition new_rayset (n : nat) : list col :=
  map (fun i => Col (Ray (point 0 0 0) zero4) 0 100 (633 / 1000) 1 i) (seq 0 n).

(** Writing one row of a RaySet: [rayset.rays[0, 1] = values] and so on.  [fill] writes one
    value everywhere, [assign] a row of values. *)
Definition fill {A : Type} (put : A -> col -> col) (x : A) (cs : list col) : list col := map (put x) cs.
Definition assign {A : Type} (put : A -> col -> col) (xs : list A) (cs : list col) : list col :=
  map (fun q : A * col => put (fst q) (snd q)) (combine xs cs).
Definition set_pos_y (y : R) (c : col) : col :=
  let o := origin (c_ray c) in with_ray (Ray (V4 (vx o) y (vz o) (vw o)) (direction (c_ray c))) c.
Definition set_pos_z (z : R) (c : col) : col :=
  let o := origin (c_ray c) in with_ray (Ray (V4 (vx o) (vy o) z (vw o)) (direction (c_ray c))) c.
Definition set_dir_x (x : R) (c : col) : col :=
  let d := direction (c_ray c) in with_direction (V4 x (vy d) (vz d) (vw d)) c.
Definition set_dir_y (y : R) (c : col) : col :=
  let d := direction (c_ray c) in with_direction (V4 (vx d) y (vz d) (vw d)) c.
Definition set_dir_z (z : R) (c : col) : col :=
  let d := direction (c_ray c) in with_direction (V4 (vx d) (vy d) z (vw d)) c.
Definition set_wavelength (wl : R) (c : col) : col :=
  Col (c_ray c) (c_gen c) (c_int c) wl (c_idx c) (c_id c).
Definition set_intensity (x : R) (c : col) : col :=
  Col (c_ray c) (c_gen c) x (c_wl c) (c_idx c) (c_id c).

(** The sources with their constructor arguments (angles in degrees).
    components.py:511-530 LineOfRays, 533-558 CircleOfRays, 561-585 ConeOfRays,
    588-613 WedgeOfRays, 616-654 Lamp *)
Inductive source : Type :=
| LineOfRays (spacing : R)
| CircleOfRays (diameter : R)
| ConeOfRays (cone_angle : R)
| WedgeOfRays (angle : R)
| Lamp (width length max_angle : R).
(** components.py:573, 598, 631-633: degrees to radians in the constructors *)
Definition radians (degrees : R) : R := degrees * PI / 180.

Section Random.
  (** The numbers np.random hands out, in order; a position in it is the state of the
      generator. *)
  Variable rnd : nat -> R.
  (** [np.random.random_sample(n)] at position [p] *)
  Definition random_sample (p n : nat) : list R := map rnd (seq p n).

  (** components.py:56-70 [_sphere_sample]: theta and phi.  [random_sample((2, n))] fills
      row 0, then row 1. *)
  Definition sphere_sample (p n : nat) (max_angle : R) : list R * list R :=
    (map (fun u => acos (1 - u * (1 - cos max_angle))) (random_sample p n),
     map (fun v => v * (2 * PI)) (random_sample (p + n) n)).

  (** The [_local_ray_generation] of each class: the rays, and the generator's position
      afterwards.  components.py:516-530, 545-558, 575-585, 600-613, 637-654 *)
  Definition local_rays (s : source) (wl : R) (p n : nat) : list col * nat :=
    match s with
    | LineOfRays spacing =>
        let rs := new_rayset n in
        let rs := if Nat.ltb 1 n
                  then assign set_pos_y (linspace (- spacing / 2) (spacing / 2) n) rs else rs in
        let rs := fill set_dir_x 1 rs in
        (fill set_wavelength wl rs, p)
    | CircleOfRays diameter =>
        let rs := new_rayset n in
        let theta := linspace 0 (2 * PI) n in
        let rs := assign set_pos_y (map (fun t => diameter / 2 * sin t) theta) rs in
        let rs := assign set_pos_z (map (fun t => diameter / 2 * cos t) theta) rs in
        let rs := fill set_dir_x 1 rs in
        (fill set_wavelength wl rs, p)
    | ConeOfRays cone_angle =>
        let angle := radians cone_angle in
        let rs := new_rayset n in
        let angles := map (fun i => 2 * PI * INR i / INR n) (seq 0 n) in
        let rs := if Nat.ltb 1 n
                  then assign set_dir_z (map (fun a => sin angle * cos a) angles)
                         (assign set_dir_y (map (fun a => sin angle * sin a) angles) rs)
                  else rs in
        let rs := fill set_dir_x (cos angle) rs in
        (fill set_wavelength wl rs, p)
    | WedgeOfRays wedge_angle =>
        let angle := radians wedge_angle in
        let rs := new_rayset n in
        let angles := linspace (- angle / 2) (angle / 2) n in
        let rs := assign set_dir_x (map cos angles) rs in
        let rs := assign set_dir_y (map sin angles) rs in
        (fill set_wavelength wl rs, p)
    | Lamp width length max_angle =>
        let rs := fill set_wavelength wl (new_rayset n) in
        let '(theta, phi) := sphere_sample p n (radians max_angle) in
        let rs := assign set_pos_y (map (fun u => width * (u - 1 / 2)) (random_sample (p + 2 * n) n)) rs in
        let rs := assign set_pos_z (map (fun u => length * (u - 1 / 2)) (random_sample (p + 3 * n) n)) rs in
        let rs := assign set_dir_x (map cos theta) rs in
        let rs := assign set_dir_y (map (fun q : R * R => sin (fst q) * cos (snd q)) (combine theta phi)) rs in
        let rs := assign set_dir_z (map (fun q : R * R => sin (fst q) * sin (snd q)) (combine theta phi)) rs in
        (assign set_intensity (map (fun t => 100 * cos t) theta) rs, (p + 4 * n)%nat)
    end.

  (** components.py:489-497, for one column: to world space, then the direction is divided
      by its norm; [None] stands for nan (a zero direction). *)
  Definition place_ray (m : mat) (c : col) : option col :=
    let c := with_ray (ray_map m (c_ray c)) c in
    match vnormalize (direction (c_ray c)) with
    | None => None
    | Some d => Some (with_direction d c)
    end.
  (** components.py:481-497 [Source.generate_rays] of a source whose world transform is [m] *)
  Definition generate_rays (s : source) (wl : R) (m : mat) (p n : nat) : list (option col) * nat :=
    let '(rs, p') := local_rays s wl p n in (map (place_ray m) rs, p').
End Random.

(** ** StaticLamp (components.py:657-662) *)
(** [@lru_cache(10)] on a method: one cache for all lamps, keyed by the lamp and n_rays;
    the most recently used entry comes first. *)
Definition cache_size : nat := 10.
Definition key : Type := (nat * nat)%type.
Definition key_eqb (a b : key) : bool := (Nat.eqb (fst a) (fst b) && Nat.eqb (snd a) (snd b))%bool.
Definition rays_out : Type := list (option col).
Definition cache : Type := list (key * rays_out).
Fixpoint cache_find (k : key) (c : cache) : option rays_out :=
  match c with
  | [] => None
  | (k', r) :: c' => if key_eqb k k' then Some r else cache_find k c'
  end.
Definition cache_remove (k : key) (c : cache) : cache :=
  filter (fun e : key * rays_out => negb (key_eqb k (fst e))) c.

(** A lamp: its parameters, wavelength and world transform *)
Record lamp : Type := MkLamp { l_source : source; l_wl : R; l_world : mat }.
(** The lamps (an object is its position in the list), the random generator, the cache *)
Record lamps : Type := Lamps { ls_lamps : list lamp; ls_pos : nat; ls_cache : cache }.
Definition no_lamps : lamps := Lamps [] 0 [].

Inductive lamp_call : Type :=
| NewLamp (width length max_angle wl : R)
| Generate (i n : nat)                (* lamp.generate_rays(n) *)
| MoveLamp (i : nat) (t : mat)        (* any movement operation: a transform is appended *)
| SetWavelength (i : nat) (wl : R).   (* components.py:507-509 *)

Section Lamps.
  Variable rnd : nat -> R.
  (** One call; the rays it returns, if it is [generate_rays] of an existing lamp *)
  Definition lamp_step (c : lamp_call) (s : lamps) : lamps * option rays_out :=
    match c with
    | NewLamp w l a wl => (Lamps (ls_lamps s ++ [MkLamp (Lamp w l a) wl mid]) (ls_pos s) (ls_cache s), None)
    | MoveLamp i t =>
        (Lamps (list_upd (ls_lamps s) i (fun x => MkLamp (l_source x) (l_wl x) (mmul t (l_world x))))
               (ls_pos s) (ls_cache s), None)
    | SetWavelength i wl =>
        (Lamps (list_upd (ls_lamps s) i (fun x => MkLamp (l_source x) wl (l_world x)))
               (ls_pos s) (ls_cache s), None)
    | Generate i n =>
        match nth_error (ls_lamps s) i with
        | None => (s, None)
        | Some x =>
            match cache_find (i, n) (ls_cache s) with
            | Some r => (Lamps (ls_lamps s) (ls_pos s)
                               (((i, n), r) :: cache_remove (i, n) (ls_cache s)), Some r)
            | None =>
                let '(r, p) := generate_rays rnd (l_source x) (l_wl x) (l_world x) (ls_pos s) n in
                (Lamps (ls_lamps s) p (firstn cache_size (((i, n), r) :: ls_cache s)), Some r)
            end
        end
    end.
  Fixpoint lamp_run (cs : list lamp_call) (s : lamps) : lamps :=
    match cs with
    | [] => s
    | c :: r => lamp_run r (fst (lamp_step c s))
    end.
End Lamps.
