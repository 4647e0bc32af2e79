(** * Session: a Python session with tracers, lists and result frames
    Model of what RayTracer (/repo/pyrayt/_pyrayt.py:189-456) shares with its caller.  A
    tracer keeps references: to the collections of sources and components it was given
    (lines 229-241, 312-317), and to the DataFrame with its results (lines 166, 223, 269),
    which trace and get_results hand out (lines 339, 347).  Collections and frames are
    numbered objects here; the value model of a trace is Tracer.v.
    SIMPLIFICATION: a loop over an iterator that an exception ends has used it up. *)
From Coq Require Import Reals List Bool ZArith.
Import ListNotations.
From Verif Require Import XR Arr Lin Ops Prim Csg Surf World Tracer.
Open Scope R_scope.

(** A collection: a list, tuple or set, which can be read again and again, or an iterator
    or generator, which can be read once. *)
Inductive iterable : Type :=
| ListObj (xs : list loc)
| Iterator (xs : list loc).

Record store : Type := Store { st_iters : list iterable; st_frames : list frame }.

(** a [for] loop over the collection [i]: what it sees, and what it leaves *)
Definition iterate (m : store) (i : nat) : list loc * store :=
  match nth_error (st_iters m) i with
  | Some (ListObj xs) => (xs, m)
  | Some (Iterator xs) => (xs, Store (list_upd (st_iters m) i (fun _ => Iterator [])) (st_frames m))
  | None => ([], m)
  end.

(** a new DataFrame object: _pyrayt.py:166 and the [append] of line 186 *)
Definition new_frame (f : frame) (m : store) : nat * store :=
  (length (st_frames m), Store (st_iters m) (st_frames m ++ [f])).
Definition frame_at (m : store) (i : nat) : frame := nth i (st_frames m) empty_frame.

(** _pyrayt.py:223-260: the attributes of a tracer, collections and frame by reference *)
Record ptracer : Type := PTracer {
  p_frame : nat;
  p_state : state;
  p_gen : nat;
  p_complete : bool;
  p_sources : nat;
  p_comps : nat;
  p_n : nat;
  p_limit : Z;
  p_rays : list col;
  p_hits : list (xr * Z);
  p_lut : list (Z * loc)
}.

Inductive pres : Type :=
| POk (p : ptracer) (m : store)
| PRaise (e : exn) (p : ptracer) (m : store)
| PNan
| PFuel.
Definition pbind (r : pres) (k : ptracer -> store -> pres) : pres :=
  match r with POk p m => k p m | _ => r end.

(** _pyrayt.py:262-271 [reset] *)
Definition p_reset (p : ptracer) (m : store) : ptracer * store :=
  let '(f, m) := new_frame empty_frame m in
  (PTracer f IDLE 0 false (p_sources p) (p_comps p) (p_n p) (p_limit p) (p_rays p) (p_hits p) (p_lut p), m).

Section Trace.
  Variable asort : list xr -> list nat.
  Variable h : heap.
  Variable generate_rays : loc -> nat -> list col.

  (** _pyrayt.py:356-368 [_st_initialize] *)
  Definition p_initialize (p : ptracer) (m : store) : pres :=
    let '(p, m) := p_reset p m in
    let '(ss, m) := iterate m (p_sources p) in
    match ss with
    | [] => PRaise ValueError p m
    | _ => POk (PTracer (p_frame p) PROPAGATE (p_gen p) (p_complete p) (p_sources p) (p_comps p) (p_n p) (p_limit p)
                  (renumber 0 (concat (map (fun s => generate_rays s (p_n p)) ss))) (p_hits p) (p_lut p)) m
    end.

  (** _pyrayt.py:370-392 [_st_propagate]: the components are iterated over in every
      generation (line 377) *)
  Definition p_propagate (p : ptracer) (m : store) : pres :=
    let '(cs, m) := iterate m (p_comps p) in
    match collect (map (shape_of h) cs) with
    | None => PRaise AttributeError p m
    | Some comps =>
        POk (PTracer (p_frame p) INTERACT (p_gen p) (p_complete p) (p_sources p) (p_comps p) (p_n p) (p_limit p)
               (p_rays p) (map (propagate asort comps) (p_rays p)) (p_lut p)) m
    end.

  (** _pyrayt.py:394-452 [_st_interact]: [insert] (line 186) makes a new frame *)
  Definition p_interact (p : ptracer) (m : store) : pres :=
    match collect (map (entry_of h) (p_lut p)) with
    | None => PRaise AttributeError p m
    | Some lut =>
        match interact lut (p_limit p) (p_gen p) (p_rays p) (p_hits p) with
        | IRaise => PRaise AttributeError p m
        | INan => PNan
        | IAllDead =>
            POk (PTracer (p_frame p) FINISH (p_gen p) (p_complete p) (p_sources p) (p_comps p) (p_n p) (p_limit p)
                   (p_rays p) (p_hits p) (p_lut p)) m
        | INext rows rays gen finished =>
            let '(f, m) := new_frame (Frame (f_rows (frame_at m (p_frame p)) ++ rows) None) m in
            POk (PTracer f (if finished then FINISH else PROPAGATE) gen (p_complete p) (p_sources p) (p_comps p) (p_n p)
                   (p_limit p) rays (p_hits p) (p_lut p)) m
        end
    end.

  (** _pyrayt.py:454-456 [_st_finish] *)
  Definition p_finish (p : ptracer) (m : store) : pres :=
    POk (PTracer (p_frame p) IDLE (p_gen p) true (p_sources p) (p_comps p) (p_n p) (p_limit p)
           (p_rays p) (p_hits p) (p_lut p)) m.

  (** _pyrayt.py:329-339 [trace] *)
  Fixpoint p_states (fuel : nat) (p : ptracer) (m : store) : pres :=
    match p_state p with
    | IDLE => POk p m
    | s =>
        match fuel with
        | O => PFuel
        | S n =>
            pbind (match s with
                   | INITIALIZE => p_initialize p m
                   | PROPAGATE => p_propagate p m
                   | INTERACT => p_interact p m
                   | _ => p_finish p m
                   end) (p_states n)
        end
    end.
  Definition p_trace (fuel : nat) (p : ptracer) (m : store) : pres :=
    p_states fuel (PTracer (p_frame p) INITIALIZE (p_gen p) (p_complete p) (p_sources p) (p_comps p) (p_n p) (p_limit p)
                     (p_rays p) (p_hits p) (p_lut p)) m.
End Trace.

(** ** The session *)
(** [s_clock] counts the traces so far: a source may emit other rays every time. *)
Record session : Type := Session {
  s_heap : heap;
  s_store : store;
  s_tracers : list ptracer;
  s_clock : nat
}.
Definition start : session := Session empty_heap (Store [] []) [] 0.

(** An argument [sources] or [components]: one object, which the tracer puts into a tuple
    of its own (lines 228-241), or a collection *)
Inductive arg : Type := One (l : loc) | Many (i : nat).
Definition resolve (a : arg) (m : store) : nat * store :=
  match a with
  | Many i => (i, m)
  | One l => (length (st_iters m), Store (st_iters m ++ [ListObj [l]]) (st_frames m))
  end.

(** The statements of a program *)
Inductive stmt : Type :=
| SWorld (c : call)                                  (* anything World.v knows *)
| SList (xs : list loc)                              (* a new list *)
| SIter (xs : list loc)                              (* a new generator *)
| SMutate (i : nat) (xs : list loc)                  (* append, remove, ...: the list now is xs *)
| STracer (sources comps : arg) (n : nat) (limit : Z)
| SRaysPerSource (k n : nat)
| SLimit (k : nat) (limit : Z)
| SLoad (k : nat) (comps : arg)
| SReset (k : nat)
| STrace (k : nat)
| SIds (k : nat).

Inductive sres : Type :=
| SOk (s : session)
| SRaise (e : exn) (s : session)
| SEndless.   (* endless recursion or loop, or nan: not followed *)

Definition with_tracer (k : nat) (f : ptracer -> ptracer) (s : session) : session :=
  Session (s_heap s) (s_store s) (list_upd (s_tracers s) k f) (s_clock s).

Section Statements.
  Variable asort : list xr -> list nat.
  Variable generate_rays : nat -> heap -> loc -> nat -> list col.
  Variable fuel : nat.

  (** _pyrayt.py:211-260 [RayTracer.__init__]; the loop of lines 259-260 iterates over the
      components *)
  Definition s_tracer (sources comps : arg) (n : nat) (limit : Z) (s : session) : sres :=
    let '(f, m) := new_frame empty_frame (s_store s) in
    let '(si, m) := resolve sources m in
    let '(ci, m) := resolve comps m in
    let '(cs, m) := iterate m ci in
    match collect (map (lut_of (s_heap s)) cs) with
    | None => SRaise AttributeError (Session (s_heap s) m (s_tracers s) (s_clock s))
    | Some luts =>
        SOk (Session (s_heap s) m
               (s_tracers s ++ [PTracer f IDLE 0 false si ci n limit [] [] (concat luts)]) (s_clock s))
    end.

  Definition run_stmt (c : stmt) (s : session) : sres :=
    match c with
    | SWorld c =>
        match run_call asort c (s_heap s) with
        | Ok h => SOk (Session h (s_store s) (s_tracers s) (s_clock s))
        | Raise e h => SRaise e (Session h (s_store s) (s_tracers s) (s_clock s))
        | Diverge => SEndless
        end
    | SList xs => SOk (Session (s_heap s) (Store (st_iters (s_store s) ++ [ListObj xs]) (st_frames (s_store s)))
                         (s_tracers s) (s_clock s))
    | SIter xs => SOk (Session (s_heap s) (Store (st_iters (s_store s) ++ [Iterator xs]) (st_frames (s_store s)))
                         (s_tracers s) (s_clock s))
    | SMutate i xs =>
        match nth_error (st_iters (s_store s)) i with
        | Some (ListObj _) =>
            SOk (Session (s_heap s) (Store (list_upd (st_iters (s_store s)) i (fun _ => ListObj xs)) (st_frames (s_store s)))
                   (s_tracers s) (s_clock s))
        | _ => SRaise AttributeError s
        end
    | STracer sources comps n limit => s_tracer sources comps n limit s
    | SRaysPerSource k n =>                                       (* 273-279 *)
        match nth_error (s_tracers s) k with
        | None => SRaise AttributeError s
        | Some _ => SOk (with_tracer k (fun p => PTracer (p_frame p) (p_state p) (p_gen p) (p_complete p) (p_sources p)
                           (p_comps p) n (p_limit p) (p_rays p) (p_hits p) (p_lut p)) s)
        end
    | SLimit k limit =>                                           (* 289-295 *)
        match nth_error (s_tracers s) k with
        | None => SRaise AttributeError s
        | Some _ => SOk (with_tracer k (fun p => PTracer (p_frame p) (p_state p) (p_gen p) (p_complete p) (p_sources p)
                           (p_comps p) (p_n p) limit (p_rays p) (p_hits p) (p_lut p)) s)
        end
    | SLoad k comps =>                                            (* 305-317 *)
        match nth_error (s_tracers s) k with
        | None => SRaise AttributeError s
        | Some _ =>
            let '(ci, m) := resolve comps (s_store s) in
            SOk (with_tracer k (fun p => PTracer (p_frame p) (p_state p) (p_gen p) (p_complete p) (p_sources p)
                   ci (p_n p) (p_limit p) (p_rays p) (p_hits p) (p_lut p)) (Session (s_heap s) m (s_tracers s) (s_clock s)))
        end
    | SReset k =>
        match nth_error (s_tracers s) k with
        | None => SRaise AttributeError s
        | Some p =>
            let '(p, m) := p_reset p (s_store s) in
            SOk (with_tracer k (fun _ => p) (Session (s_heap s) m (s_tracers s) (s_clock s)))
        end
    | STrace k =>
        match nth_error (s_tracers s) k with
        | None => SRaise AttributeError s
        | Some p =>
            match p_trace asort (s_heap s) (generate_rays (s_clock s) (s_heap s)) fuel p (s_store s) with
            | POk p m => SOk (with_tracer k (fun _ => p) (Session (s_heap s) m (s_tracers s) (S (s_clock s))))
            | PRaise e p m => SRaise e (with_tracer k (fun _ => p) (Session (s_heap s) m (s_tracers s) (S (s_clock s))))
            | PNan | PFuel => SEndless
            end
        end
    | SIds k =>                                                   (* 349-354: a column is added to the frame in place *)
        match nth_error (s_tracers s) k with
        | None => SRaise AttributeError s
        | Some p =>
            SOk (Session (s_heap s)
                   (Store (st_iters (s_store s))
                      (list_upd (st_frames (s_store s)) (p_frame p)
                         (fun f => Frame (f_rows f) (Some (map (fun w => trunc (INR (row_id w) / INR (p_n p))) (f_rows f))))))
                   (s_tracers s) (s_clock s))
        end
    end.

  (** A program that catches exceptions and carries on *)
  Fixpoint run_stmts (cs : list stmt) (s : session) : option session :=
    match cs with
    | [] => Some s
    | c :: r =>
        match run_stmt c s with
        | SOk s | SRaise _ s => run_stmts r s
        | SEndless => None
        end
    end.
End Statements.

(** ** Reading *)
(** _pyrayt.py:341-347 [get_results], and what [trace] returns (line 339): the frame object *)
Definition results_object (s : session) (k : nat) : option nat := option_map p_frame (nth_error (s_tracers s) k).
(** _pyrayt.py:281-287 and 297-303 *)
Definition rays_per_source (s : session) (k : nat) : option nat := option_map p_n (nth_error (s_tracers s) k).
Definition generation_limit (s : session) (k : nat) : option Z := option_map p_limit (nth_error (s_tracers s) k).
(** What a DataFrame object holds *)
Definition frame_holds (s : session) (f : nat) : option frame := nth_error (st_frames (s_store s)) f.
