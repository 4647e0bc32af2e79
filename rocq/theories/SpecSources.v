(** * SpecSources: what the theorems about the sources say
    Specification only. *)
From Coq Require Import Reals List Bool ZArith.
Import ListNotations.
From Verif Require Import XR Lin LinFacts SpecOptics World Tracer Sources.
Open Scope R_scope.

(** [generate_rays] returns exactly these rays, none of them nan. *)
Definition emits (rnd : nat -> R) (s : source) (wl : R) (m : mat) (p n : nat) (rays : list col) : Prop :=
  fst (generate_rays rnd s wl m p n) = map Some rays.

(** The metadata of a fresh ray *)
Definition fresh_ray (wl : R) (k : nat) (c : col) : Prop :=
  c_wl c = wl /\ c_gen c = O /\ c_idx c = 1 /\ c_id c = k.

(** The angle between two directions is [a]. *)
Definition at_angle (u v : v4) (a : R) : Prop := 0 <= a <= PI /\ vdot u v = vnorm u * vnorm v * cos a.
Definition x_axis : v4 := vector 1 0 0.

(** Ray [c'] is ray [c] carried to the place [m]: same metadata, unit direction. *)
Definition carried (m : mat) (c c' : col) : Prop :=
  origin (c_ray c') = mapply m (origin (c_ray c)) /\
  direction (c_ray c') = hat (mapply m (direction (c_ray c))) /\ unit (direction (c_ray c')) /\
  c_gen c' = c_gen c /\ c_int c' = c_int c /\ c_wl c' = c_wl c /\ c_idx c' = c_idx c /\ c_id c' = c_id c.

(** np.random.random_sample returns numbers in [0, 1). *)
Definition sampler (rnd : nat -> R) : Prop := forall i, 0 <= rnd i < 1.

(** ** Histories of static lamps *)
(** The answer to [lamp.generate_rays(n)] for lamp number [i], in state [s] *)
Definition answer (rnd : nat -> R) (s : lamps) (i n : nat) : option rays_out :=
  snd (lamp_step rnd (Generate i n) s).
(** The requests other than (i, n) that a list of calls makes *)
Definition other_requests (i n : nat) (cs : list lamp_call) : list key :=
  flat_map (fun c => match c with
                     | Generate j m => if key_eqb (i, n) (j, m) then [] else [(j, m)]
                     | _ => []
                     end) cs.
(** There are at most [b] different ones among them. *)
Definition at_most (b : nat) (ks : list key) : Prop := exists l, (length l <= b)%nat /\ incl ks l.
(** Lamp [i] is neither moved nor given another wavelength. *)
Definition untouched (i : nat) (cs : list lamp_call) : Prop :=
  Forall (fun c => match c with MoveLamp j _ | SetWavelength j _ => j <> i | _ => True end) cs.
(** Nobody has asked lamp [i] for rays. *)
Definition never_asked (i : nat) (cs : list lamp_call) : Prop := forall n, ~ In (Generate i n) cs.
(** The rays that lamp [x] emits where it stands, from some state of the generator *)
Definition emitted_here (rnd : nat -> R) (x : lamp) (n : nat) (r : rays_out) : Prop :=
  exists p, r = fst (generate_rays rnd (l_source x) (l_wl x) (l_world x) p n).
