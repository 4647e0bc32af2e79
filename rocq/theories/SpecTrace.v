(** * SpecTrace: what the theorems about the ray tracer say
    Specification only. *)
From Coq Require Import Reals List Bool ZArith.
Import ListNotations.
From Verif Require Import XR Arr Lin LinFacts Prim Csg Surf SpecGeom SpecTree World SpecWorld SpecOptics Tracer.
Open Scope R_scope.

(** Component number [i] lists, as entry [k] of its answer to the ray, a hit at
    distance [t] > 0 on the surface with id [sid]. *)
Definition reports (asort : list xr -> list nat) (comps : list shape) (r : ray)
    (i k : nat) (t : R) (sid : Z) : Prop :=
  exists s, nth_error comps i = Some s /\
    nth_error (fst (shape_intersect asort s r)) k = Some (Fin t) /\
    nth_error (snd (shape_intersect asort s r)) k = Some sid /\ 0 < t.

(** The nearest of them, the earliest component winning ties. *)
Definition first_hit (asort : list xr -> list nat) (comps : list shape) (r : ray) (t : R) (sid : Z) : Prop :=
  exists i k, reports asort comps r i k t sid /\
    forall i' k' t' sid', reports asort comps r i' k' t' sid' ->
    t < t' \/ (t = t' /\ ((i < i')%nat \/ (i = i' /\ (k <= k')%nat))).
Definition no_hit (asort : list xr -> list nat) (comps : list shape) (r : ray) : Prop :=
  forall i k t sid, ~ reports asort comps r i k t sid.

(** A ray without direction, up to numpy's isclose *)
Definition stopped (c : col) : Prop := vnorm (direction (c_ray c)) <= atol.

(** What one ray does, on its own, from generation [g] on, and the rows it leaves. *)
Inductive history (asort : list xr -> list nat) (comps : list shape) (surfaces : list surf) (limit : Z)
  : nat -> col -> list row -> Prop :=
| History_limit : forall g c,
    (0 < g)%nat -> Z.of_nat g = limit -> history asort comps surfaces limit g c []
| History_stopped : forall g c,
    stopped c \/ no_hit asort comps (c_ray c) -> history asort comps surfaces limit g c []
| History_hit : forall g c t sid s c' rows,
    (g = O \/ Z.of_nat g <> limit) -> ~ stopped c ->
    first_hit asort comps (c_ray c) t sid ->
    In s surfaces -> s_id s = sid ->
    material_trace s (forward t c) = Some c' ->
    history asort comps surfaces limit (S g) (forward ray_offset_value (with_gen (S g) c')) rows ->
    history asort comps surfaces limit g c
      (Row (c_gen c) (c_int c) (c_wl c) (c_idx c) (c_id c) sid
           (trim (origin (c_ray c))) (trim (origin (c_ray c'))) (hat (trim (direction (c_ray c)))) :: rows).

(** The rows of one ray, in frame order *)
Definition rows_with_id (i : nat) (rows : list row) : list row :=
  filter (fun w => Nat.eqb (row_id w) i) rows.

(** The rays of all sources, one source after the other *)
Definition source_rays (generate_rays : loc -> nat -> list col) (t : tracer) : list col :=
  concat (map (fun s => generate_rays s (t_n t)) (t_sources t)).

(** ** Scenes in which nothing can go wrong *)
(** A cylinder with caps (an uncapped one has no normal where a ray leaves along its axis) *)
Definition capped (p : prim) : Prop := match p with PCylinder _ _ _ c => c = true | _ => True end.
(** A material rays can meet; its index is a positive number at the wavelengths in use *)
Definition optical (wavelengths : R -> Prop) (m : material) : Prop :=
  match m with
  | Untraceable => False
  | Refractor index_at => forall wl, wavelengths wl -> exists n, index_at wl = Fin n /\ 0 < n
  | _ => True
  end.
Definition part_ok (wavelengths : R -> Prop) (s : surf) : Prop :=
  prim_ok (s_prim s) /\ affine (s_world s) /\ is_inverse (s_world s) (s_obj s) /\
  capped (s_prim s) /\ (s_nscale s = 1 \/ s_nscale s = -1) /\ optical wavelengths (s_mat s).
(** A ray of a source: a point, a unit vector (or none) and a positive index *)
Definition ray_ok (c : col) : Prop :=
  vw (origin (c_ray c)) = 1 /\ vw (direction (c_ray c)) = 0 /\
  (unit (direction (c_ray c)) \/ direction (c_ray c) = zero4) /\ 0 < c_idx c.

(** ** Scenes *)
(** The tracer's table of surfaces lists the surfaces of the components it has now. *)
Definition table_current (h : heap) (t : tracer) : Prop :=
  exists luts, collect (map (lut_of h) (t_comps t)) = Some luts /\ t_lut t = concat luts.
(** [comps] are the tracer's components, as they are placed now; its table is right, and
    no surface belongs to two of them (or twice to one). *)
Definition scene (h : heap) (t : tracer) (comps : list shape) : Prop :=
  map (shape_of h) (t_comps t) = map Some comps /\ table_current h t /\
  NoDup (map s_id (flat_map surface_ids comps)).

(** ** What the rows of a frame say *)
(** The point whose first three coordinates a row holds *)
Definition here (v : v4) : v4 := vset_w v 1.
(** A row is one straight leg: from its start along its unit tilt to the first surface
    met, which is the one it names. *)
Definition leg (asort : list xr -> list nat) (comps : list shape) (w : row) : Prop :=
  unit (row_tilt w) /\ vw (row_tilt w) = 0 /\
  exists t, 0 < t /\ row_end w = vadd (row_start w) (vscale t (row_tilt w)) /\
    first_hit asort comps (Ray (here (row_start w)) (row_tilt w)) t (row_surf w).
(** The next row starts a little along its own direction from where the last ended. *)
Definition follows (w w' : row) : Prop :=
  row_start w' = vadd (row_end w) (vscale ray_offset_value (row_tilt w')) /\ row_gen w' = S (row_gen w).
(** Its direction and index obey the law of the surface at the meeting point. *)
Definition bounce (surfaces : list surf) (w w' : row) : Prop :=
  exists s n, In s surfaces /\ s_id s = row_surf w /\ world_normal s (here (row_end w)) = Some n /\ unit n /\
  match s_mat s with
  | Mirror => row_idx w' = row_idx w /\ mirrored (row_tilt w) (row_tilt w') n
  | Refractor index_at =>
      exists n2, index_at (row_wl w) = Fin n2 /\
      let m := next_index (row_tilt w) n n2 world_index in
      (row_idx w * vnorm (tangential (row_tilt w) n) < m ->
         row_idx w' = m /\
         vscale (row_idx w) (tangential (row_tilt w) n) = vscale m (tangential (row_tilt w') n) /\
         (if Rlt_dec 0 (vdot (row_tilt w) n) then 0 < vdot (row_tilt w') n else vdot (row_tilt w') n < 0)) /\
      (m <= row_idx w * vnorm (tangential (row_tilt w) n) ->
         row_idx w' = row_idx w /\ mirrored (row_tilt w) (row_tilt w') n)
  | _ => False
  end.
(** Why a ray has no further row: the limit, an absorber, or nothing lies along the row that would come next *)
Definition over (asort : list xr -> list nat) (comps : list shape) (limit : Z) (w : row) : Prop :=
  Z.of_nat (S (row_gen w)) = limit \/
  (exists s, In s (flat_map surface_ids comps) /\ s_id s = row_surf w /\ s_mat s = Absorber) \/
  (exists w', follows w w' /\ bounce (flat_map surface_ids comps) w w' /\ unit (row_tilt w') /\ vw (row_tilt w') = 0 /\
     no_hit asort comps (Ray (here (row_start w')) (row_tilt w'))).

(** A scene, and sources, in which nothing can go wrong *)
Definition proper (generate_rays : loc -> nat -> list col) (h : heap) (t : tracer) (comps : list shape) : Prop :=
  scene h t comps /\ (1 <= t_limit t)%Z /\ t_sources t <> [] /\
  (forall c, In c (source_rays generate_rays t) -> ray_ok c /\ c_gen c = O) /\
  (forall s, In s (flat_map surface_ids comps) ->
     part_ok (fun wl => exists c, In c (source_rays generate_rays t) /\ c_wl c = wl) s).

(** Row [w] comes before row [w']: earlier generation, or same generation and lower id *)
Definition earlier (w w' : row) : Prop :=
  (row_gen w < row_gen w')%nat \/ (row_gen w = row_gen w' /\ (row_id w < row_id w')%nat).

(** The nearest positive hits of the ray [r] all belong to one component. *)
Definition untied (asort : list xr -> list nat) (comps : list shape) (r : ray) : Prop :=
  forall t sid i k sid1 i' k' sid2, first_hit asort comps r t sid ->
    reports asort comps r i k t sid1 -> reports asort comps r i' k' t sid2 -> i = i'.

(** The same row with another ray id *)
Definition row_with_id (i : nat) (w : row) : row :=
  Row (row_gen w) (row_int w) (row_wl w) (row_idx w) i (row_surf w) (row_start w) (row_end w) (row_tilt w).
(** The same row with another intensity *)
Definition row_with_int (x : R) (w : row) : row :=
  Row (row_gen w) x (row_wl w) (row_idx w) (row_id w) (row_surf w) (row_start w) (row_end w) (row_tilt w).

(** The calls of the tracer's interface that leave the scene as it is, and how they change the tracer *)
Inductive tcall : Type := TTrace (fuel : nat) | TReset | TSourceIds.
Inductive after_calls (asort : list xr -> list nat) (h : heap) (gen : loc -> nat -> list col) : list tcall -> tracer -> tracer -> Prop :=
| AC_nil : forall t, after_calls asort h gen [] t t
| AC_trace : forall fuel cs t t1 t2 e, trace asort h gen fuel t = TOk t1 \/ trace asort h gen fuel t = TRaise e t1 ->
    after_calls asort h gen cs t1 t2 -> after_calls asort h gen (TTrace fuel :: cs) t t2
| AC_reset : forall cs t t2, after_calls asort h gen cs (reset t) t2 -> after_calls asort h gen (TReset :: cs) t t2
| AC_ids : forall cs t t2, after_calls asort h gen cs (calculate_source_ids t) t2 ->
    after_calls asort h gen (TSourceIds :: cs) t t2.

(** Calls that make parts a ray can meet: valid sizes, capped cylinders, optical materials,
    affine transformations *)
Definition fit_call (P : R -> Prop) (c : call) : Prop :=
  match c with
  | CSurface p m => prim_ok p /\ capped p /\ optical P m
  | CMotion _ (Transform m) => affine m
  | _ => True
  end.

(** Row [w] is the first leg of the source's ray [c]. *)
Definition first_row (c : col) (w : row) : Prop :=
  row_start w = trim (origin (c_ray c)) /\ row_tilt w = direction (c_ray c) /\ row_idx w = c_idx c /\
  row_wl w = c_wl c /\ row_gen w = c_gen c /\ unit (direction (c_ray c)).
