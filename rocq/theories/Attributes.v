(** * Attributes: which attributes the methods of a RayTracer and of the renderers read and assign
    /repo/pyrayt/_pyrayt.py:189-537, /repo/tinygfx/g3d/renderers.py:11-248

    An instance is its [__dict__].  Kept: every read [self.x] and every assignment
    [self.x = ...], in the order of the code, and the values of [_state] and
    [_state_machine].  Left out: all other values.  What a method does with them (calls of
    sources, components, numpy, matplotlib) is [outside]; it may raise.  Besides, any read
    or assignment may be interrupted (KeyboardInterrupt) before it takes effect.  An oracle
    says where that happens, which way a test goes and how often a loop runs. *)
From Coq Require Import List String Arith.
Import ListNotations.
Open Scope string_scope.

(** The value of an attribute: a member of the enumeration [_States] or [States], by name;
    the table [_state_machine], from states to method names; anything else. *)
Inductive value : Type := Member (s : string) | Table (t : list (string * string)) | Other.
Definition dict : Type := list (string * value).
Fixpoint lookup {V : Type} (d : list (string * V)) (a : string) : option V :=
  match d with
  | [] => None
  | (b, v) :: d => if String.eqb a b then Some v else lookup d a
  end.

(** [Missing a]: the AttributeError of reading [self.a] where neither the instance nor its
    class has [a].  [BadState]: the KeyError of a state without an entry in
    [_state_machine].  [Outside]: any other exception. *)
Inductive failure : Type := Missing (a : string) | BadState | Outside.
(** [Unfinished]: not finished after the given number of states *)
Inductive result (A : Type) : Type :=
| Done (x : A) (d : dict) (oracle : list nat)
| Raised (e : failure) (d : dict)
| Unfinished.
Arguments Done {A}.
Arguments Raised {A}.
Arguments Unfinished {A}.
Definition code (A : Type) : Type := dict -> list nat -> result A.

Definition bind {A B : Type} (c : code A) (f : A -> code B) : code B := fun d o =>
  match c d o with
  | Done x d o => f x d o
  | Raised e d => Raised e d
  | Unfinished => Unfinished
  end.
Notation "x <- c ;; f" := (bind c (fun x => f)) (at level 61, c at next level, right associativity).
Notation "c ;; f" := (bind c (fun _ => f)) (at level 61, right associativity).
Definition skip : code unit := fun d o => Done tt d o.
Definition fail {A : Type} (e : failure) : code A := fun d o => Raised e d.
(** a step that may raise *)
Definition outside : code unit := fun d o =>
  match o with
  | [] => Done tt d []
  | O :: o => Done tt d o
  | S _ :: o => Raised Outside d
  end.
Definition pick : code nat := fun d o =>
  match o with
  | [] => Done O d []
  | n :: o => Done n d o
  end.
(** an [if] *)
Definition either (c1 c2 : code unit) : code unit := n <- pick ;; match n with O => c1 | S _ => c2 end.
Fixpoint repeats (n : nat) (c : code unit) : code unit :=
  match n with O => skip | S n => c ;; repeats n c end.
(** a [for] *)
Definition times (c : code unit) : code unit := n <- pick ;; repeats n c.

(** What a class says: the names of its methods and class attributes, [__init__], and the
    body of each public method. *)
Record class : Type := Class {
  class_names : list string;
  class_init : code unit;
  class_public : list (string * (nat -> code unit))
}.

Section Instance.
  Variable names : list string.

  (** [self.a]: the instance first, then the class *)
  Definition get (a : string) : code value := outside ;; (fun d o =>
    match lookup d a with
    | Some v => Done v d o
    | None => if existsb (String.eqb a) names then Done Other d o else Raised (Missing a) d
    end).
  (** [self.a] for its effect only *)
  Definition read (a : string) : code unit := get a ;; skip.
  (** [self.a = v], once v is there *)
  Definition put (a : string) (v : value) : code unit := outside ;; (fun d o => Done tt ((a, v) :: d) o).

  (** _pyrayt.py:332-336, renderers.py:47-50, 171-174: the loop over the states.  [owner]:
      what is read to name the member IDLE ([self.States]; RayTracer reads its own class). *)
  Variable owner : code unit.
  Variable body : string -> option (code unit).
  Fixpoint run_states (fuel : nat) : code unit :=
    match fuel with
    | O => fun d o => Unfinished
    | S fuel =>
        v <- get "_state" ;;
        owner ;;
        match v with
        | Member s =>
            if String.eqb s "IDLE" then skip
            else
              t <- get "_state_machine" ;;
              w <- get "_state" ;;
              match t, w with
              | Table t, Member s =>
                  match lookup t s with
                  | None => fail BadState
                  | Some m => match body m with None => fail BadState | Some c => c ;; run_states fuel end
                  end
              | _, _ => fail BadState
              end
        | _ => fail BadState
        end
    end.
End Instance.

(** ** RayTracer *)
Module RT.
  (** _pyrayt.py:190-208 and the [def]s of 211-458 *)
  Definition names : list string :=
    ["ray_offset_value"; "ray_intensity_threshold"; "_States"; "__init__"; "reset"; "set_rays_per_source";
     "get_rays_per_source"; "set_generation_limit"; "get_generation_limit"; "load_components"; "get_system";
     "trace"; "get_results"; "calculate_source_ids"; "_st_initialize"; "_st_propagate"; "_st_interact";
     "_st_finish"; "show"].
  Notation get := (get names).
  Notation read := (read names).
  (** _pyrayt.py:246-251 *)
  Definition table : list (string * string) :=
    [("INITIALIZE", "_st_initialize"); ("PROPAGATE", "_st_propagate"); ("FINISH", "_st_finish");
     ("INTERACT", "_st_interact")].
  (** _pyrayt.py:211-260 *)
  Definition init : code unit :=
    outside ;; put "_frame" Other ;; put "_state" (Member "IDLE") ;; put "_generation_number" Other ;;
    put "_simulation_complete" Other ;;
    outside ;; put "_sources" Other ;;
    outside ;; put "_components" Other ;;
    put "_rays_per_source" Other ;; put "_generation_limit" Other ;; put "_world_index" Other ;;
    read "_st_initialize" ;; read "_st_propagate" ;; read "_st_finish" ;; read "_st_interact" ;;
    put "_state_machine" (Table table) ;;
    outside ;; put "_ray_set" Other ;; outside ;; put "_next_ray_set" Other ;;
    put "_surface_lut" Other ;;
    read "_components" ;; times (read "_surface_lut" ;; outside ;; put "_surface_lut" Other).
  (** _pyrayt.py:262-271 *)
  Definition reset : code unit :=
    put "_simulation_complete" Other ;; outside ;; put "_frame" Other ;; put "_state" (Member "IDLE") ;;
    put "_generation_number" Other.
  (** _pyrayt.py:273-303 *)
  Definition set_rays_per_source : code unit := put "_rays_per_source" Other.
  Definition get_rays_per_source : code unit := read "_rays_per_source".
  Definition set_generation_limit : code unit := put "_generation_limit" Other.
  Definition get_generation_limit : code unit := read "_generation_limit".
  (** _pyrayt.py:305-317 *)
  Definition load_components : code unit := outside ;; put "_components" Other.
  (** _pyrayt.py:319-327 *)
  Definition get_system : code unit := read "_system".
  (** _pyrayt.py:341-347 *)
  Definition get_results : code unit := read "_frame" ;; outside.
  (** _pyrayt.py:349-354 *)
  Definition calculate_source_ids : code unit :=
    read "_frame" ;; outside ;; read "_rays_per_source" ;; outside ;; read "_frame" ;; outside.
  (** _pyrayt.py:356-368 *)
  Definition st_initialize : code unit :=
    read "reset" ;; reset ;;
    read "_sources" ;; times (outside ;; read "_rays_per_source" ;; outside) ;; outside ;;
    put "_ray_set" Other ;;
    read "_ray_set" ;; outside ;; read "_ray_set" ;; outside ;;
    read "_States" ;; put "_state" (Member "PROPAGATE").
  (** _pyrayt.py:370-392 *)
  Definition st_propagate : code unit :=
    read "_ray_set" ;; outside ;; read "_ray_set" ;; outside ;; read "_ray_set" ;; outside ;;
    read "_components" ;; times (outside ;; read "_ray_set" ;; outside) ;;
    put "_hit_distances" Other ;; put "_hit_surfaces" Other ;;
    read "_States" ;; put "_state" (Member "INTERACT").
  (** _pyrayt.py:394-452 *)
  Definition st_interact : code unit :=
    read "_ray_set" ;; outside ;; read "_hit_surfaces" ;; outside ;;
    read "_surface_lut" ;;
    times (read "_hit_surfaces" ;; outside ;;
           either skip (outside ;; read "_hit_distances" ;; outside)) ;;
    read "_ray_set" ;; outside ;; read "_ray_set" ;; outside ;; read "ray_intensity_threshold" ;; outside ;;
    read "_hit_surfaces" ;; outside ;;
    either
      (put "_state" (Member "FINISH"))
      (outside ;; read "_frame" ;; read "_ray_set" ;; outside ;; read "_hit_surfaces" ;; outside ;;
       put "_ray_set" Other ;;
       read "_generation_number" ;; outside ;; put "_generation_number" Other ;;
       read "_generation_number" ;; outside ;;
       read "_generation_number" ;; read "_generation_limit" ;; outside ;;
       either
         (put "_state" (Member "FINISH"))
         (read "_ray_set" ;; outside ;; read "ray_offset_value" ;; read "_ray_set" ;; outside ;;
          read "_States" ;; put "_state" (Member "PROPAGATE"))).
  (** _pyrayt.py:454-456 *)
  Definition st_finish : code unit :=
    put "_simulation_complete" Other ;; read "_States" ;; put "_state" (Member "IDLE").
  Definition body (m : string) : option (code unit) :=
    lookup [("_st_initialize", st_initialize); ("_st_propagate", st_propagate); ("_st_interact", st_interact);
            ("_st_finish", st_finish)] m.
  (** _pyrayt.py:329-339 *)
  Definition trace (fuel : nat) : code unit :=
    put "_state" (Member "INITIALIZE") ;; run_states names skip body fuel ;; read "_frame" ;; outside.
  (** _pyrayt.py:458-536 *)
  Definition show : code unit :=
    outside ;;
    either skip
      (either
         (read "_frame" ;; outside)
         (read "_sources" ;; outside ;; read "_frame" ;; outside ;;
          times (read "_frame" ;; outside ;; read "_rays_per_source" ;; outside ;;
                 read "_frame" ;; outside ;; read "_rays_per_source" ;; outside))) ;;
    outside ;; read "_components" ;; outside ;;
    read "_simulation_complete" ;;
    either skip
      (read "_frame" ;; outside ;; read "_frame" ;; outside ;; read "_frame" ;; outside ;; read "_frame" ;; outside ;;
       read "_frame" ;; outside ;; read "_frame" ;; outside) ;;
    outside.
  Definition public : list (string * (nat -> code unit)) :=
    [("reset", fun _ => reset); ("set_rays_per_source", fun _ => set_rays_per_source);
     ("get_rays_per_source", fun _ => get_rays_per_source); ("set_generation_limit", fun _ => set_generation_limit);
     ("get_generation_limit", fun _ => get_generation_limit); ("load_components", fun _ => load_components);
     ("get_system", fun _ => get_system); ("trace", trace); ("get_results", fun _ => get_results);
     ("calculate_source_ids", fun _ => calculate_source_ids); ("show", fun _ => show)].
End RT.
Definition RayTracerClass : class := Class RT.names RT.init RT.public.

(** ** EdgeRender *)
Module ER.
  (** renderers.py:12-20 and the [def]s of 22-124 *)
  Definition names : list string :=
    ["ray_offset_value"; "States"; "__init__"; "reset"; "render"; "get_results"; "_st_initialize";
     "_st_propagate"; "_st_interact"; "_st_record"; "_st_trim"; "_st_finish"].
  Notation get := (get names).
  Notation read := (read names).
  (** renderers.py:30-36 *)
  Definition table : list (string * string) :=
    [("INITIALIZE", "_st_initialize"); ("PROPAGATE", "_st_propagate"); ("INTERACT", "_st_interact");
     ("TRIM", "_st_trim"); ("FINISH", "_st_finish")].
  (** renderers.py:30-36: the reads of the table's entries *)
  Definition make_table : code unit :=
    read "States" ;; read "_st_initialize" ;; read "States" ;; read "_st_propagate" ;;
    read "States" ;; read "_st_interact" ;; read "States" ;; read "_st_trim" ;;
    read "States" ;; read "_st_finish" ;; put "_state_machine" (Table table).
  (** renderers.py:22-36 *)
  Definition init : code unit :=
    read "States" ;; put "_state" (Member "IDLE") ;; put "_simulation_complete" Other ;; put "_results" Other ;;
    put "_camera" Other ;; put "_shapes" Other ;; make_table.
  (** renderers.py:38-41 *)
  Definition reset : code unit :=
    put "_simulation_complete" Other ;; put "_results" Other ;; read "States" ;; put "_state" (Member "IDLE").
  (** renderers.py:55-61 *)
  Definition get_results : code unit := read "_frame" ;; outside.
  (** renderers.py:63-70 *)
  Definition st_initialize : code unit :=
    read "reset" ;; reset ;; read "_camera" ;; outside ;; put "_rays" Other ;;
    read "States" ;; put "_state" (Member "PROPAGATE").
  (** renderers.py:72-94 *)
  Definition st_propagate : code unit :=
    read "_rays" ;; outside ;; read "_rays" ;; outside ;; read "_rays" ;; outside ;;
    read "_shapes" ;; times (outside ;; read "_rays" ;; outside) ;;
    put "_hit_distances" Other ;; put "_hit_surfaces" Other ;;
    read "States" ;; put "_state" (Member "INTERACT").
  (** renderers.py:96-116 *)
  Definition st_interact : code unit :=
    read "_hit_surfaces" ;; read "_camera" ;; outside ;; put "_results" Other ;;
    read "States" ;; put "_state" (Member "FINISH").
  (** renderers.py:121-122 *)
  Definition st_trim : code unit := skip.
  (** renderers.py:124-126 *)
  Definition st_finish : code unit :=
    put "_simulation_complete" Other ;; read "States" ;; put "_state" (Member "IDLE").
  Definition body (m : string) : option (code unit) :=
    lookup [("_st_initialize", st_initialize); ("_st_propagate", st_propagate); ("_st_interact", st_interact);
            ("_st_trim", st_trim); ("_st_finish", st_finish)] m.
  (** renderers.py:43-53 *)
  Definition render (fuel : nat) : code unit :=
    read "States" ;; put "_state" (Member "INITIALIZE") ;; run_states names (read "States") body fuel ;;
    read "_results".
  Definition public : list (string * (nat -> code unit)) :=
    [("reset", fun _ => reset); ("render", render); ("get_results", fun _ => get_results)].
End ER.
Definition EdgeRenderClass : class := Class ER.names ER.init ER.public.

(** ** ShadedRenderer *)
Module SR.
  (** renderers.py:130-136 and the [def]s of 138-246 *)
  Definition names : list string :=
    ["States"; "__init__"; "reset"; "render"; "_st_initialize"; "_st_propagate"; "_st_interact";
     "_st_record"; "_st_trim"; "_st_finish"].
  Notation get := (get names).
  Notation read := (read names).
  (** renderers.py:154-160 *)
  Definition table : list (string * string) := ER.table.
  Definition make_table : code unit :=
    read "States" ;; read "_st_initialize" ;; read "States" ;; read "_st_propagate" ;;
    read "States" ;; read "_st_interact" ;; read "States" ;; read "_st_trim" ;;
    read "States" ;; read "_st_finish" ;; put "_state_machine" (Table table).
  (** renderers.py:138-160 *)
  Definition init : code unit :=
    read "States" ;; put "_state" (Member "IDLE") ;; put "_simulation_complete" Other ;; put "_results" Other ;;
    outside ;; put "_light" Other ;; put "_camera" Other ;; put "_shapes" Other ;; put "_surface_lut" Other ;;
    read "_shapes" ;; times (outside ;; read "_surface_lut" ;; outside ;; put "_surface_lut" Other) ;;
    make_table.
  (** renderers.py:162-165 *)
  Definition reset : code unit :=
    put "_simulation_complete" Other ;; put "_results" Other ;; read "States" ;; put "_state" (Member "IDLE").
  (** renderers.py:179-186 *)
  Definition st_initialize : code unit :=
    read "reset" ;; reset ;; read "_camera" ;; outside ;; put "_rays" Other ;;
    read "States" ;; put "_state" (Member "PROPAGATE").
  (** renderers.py:188-210 *)
  Definition st_propagate : code unit :=
    read "_rays" ;; outside ;; read "_rays" ;; outside ;; read "_rays" ;; outside ;;
    read "_shapes" ;; times (outside ;; read "_rays" ;; outside) ;;
    put "_hit_distances" Other ;; put "_hit_surfaces" Other ;;
    read "States" ;; put "_state" (Member "INTERACT").
  (** renderers.py:212-238 *)
  Definition st_interact : code unit :=
    read "_rays" ;; outside ;; read "_surface_lut" ;;
    times (outside ;; read "_hit_surfaces" ;; outside ;;
           either skip (read "_rays" ;; outside ;; read "_hit_distances" ;; outside ;; read "_light" ;; outside)) ;;
    outside ;; read "_camera" ;; outside ;; put "_results" Other ;;
    read "States" ;; put "_state" (Member "FINISH").
  (** renderers.py:243-244 *)
  Definition st_trim : code unit := skip.
  (** renderers.py:246-248 *)
  Definition st_finish : code unit :=
    put "_simulation_complete" Other ;; read "States" ;; put "_state" (Member "IDLE").
  Definition body (m : string) : option (code unit) :=
    lookup [("_st_initialize", st_initialize); ("_st_propagate", st_propagate); ("_st_interact", st_interact);
            ("_st_trim", st_trim); ("_st_finish", st_finish)] m.
  (** renderers.py:167-177 *)
  Definition render (fuel : nat) : code unit :=
    read "States" ;; put "_state" (Member "INITIALIZE") ;; run_states names (read "States") body fuel ;;
    read "_results".
  Definition public : list (string * (nat -> code unit)) := [("reset", fun _ => reset); ("render", render)].
End SR.
Definition ShadedRendererClass : class := Class SR.names SR.init SR.public.

(** ** Programs *)
(** What a caller sees of a call *)
Inductive seen : Type := Returned | Failed (e : failure) | Endless.
(** One call: the method's name, the oracle, the number of states allowed *)
Definition call : Type := (string * list nat * nat)%type.
(** Calls on one instance, exceptions caught; after a call that does not end there is no other. *)
Fixpoint play (c : class) (d : dict) (program : list call) : list seen :=
  match program with
  | [] => []
  | (m, o, fuel) :: program =>
      match lookup (class_public c) m with
      | None => Failed (Missing m) :: play c d program
      | Some f =>
          match f fuel d o with
          | Done _ d _ => Returned :: play c d program
          | Raised e d => Failed e :: play c d program
          | Unfinished => [Endless]
          end
      end
  end.
