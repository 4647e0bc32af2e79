(** * SpecSession: what the theorems about sessions say
    Specification only. *)
From Coq Require Import Reals List Bool ZArith.
Import ListNotations.
From Verif Require Import XR Arr Lin Ops Prim Csg Surf World Tracer Session.
Open Scope R_scope.

(** The collection [i] can be read again and again and holds [xs] now *)
Definition holds_list (s : session) (i : nat) (xs : list loc) : Prop := nth_error (st_iters (s_store s)) i = Some (ListObj xs).
(** It is an iterator *)
Definition is_iterator (s : session) (i : nat) : Prop := exists xs, nth_error (st_iters (s_store s)) i = Some (Iterator xs).

(** Tracer [k] is in the session, was given the lists [xs] and [ys], which it looks at
    through references, and [t] is the tracer of Tracer.v in the same condition *)
Definition tracer_is (s : session) (k : nat) (xs ys : list loc) (t : tracer) : Prop :=
  exists p f, nth_error (s_tracers s) k = Some p /\ holds_list s (p_sources p) xs /\ holds_list s (p_comps p) ys /\
    frame_holds s (p_frame p) = Some f /\
    t = Tracer f (p_state p) (p_gen p) (p_complete p) xs ys (p_n p) (p_limit p) (p_rays p) (p_hits p) (p_lut p).

(** What tracer [k] shows as results *)
Definition shows (s : session) (k : nat) (f : frame) : Prop :=
  exists o, results_object s k = Some o /\ frame_holds s o = Some f.

(** Statements that can change a setting, the results or the components of tracer [k] *)
Definition sets_rays (k : nat) (c : stmt) : Prop := match c with SRaysPerSource j _ => j = k | _ => False end.
Definition sets_limit (k : nat) (c : stmt) : Prop := match c with SLimit j _ => j = k | _ => False end.
Definition renews_results (k : nat) (c : stmt) : Prop := match c with STrace j | SReset j => j = k | _ => False end.
Definition loads (k : nat) (c : stmt) : Prop := match c with SLoad j _ => j = k | _ => False end.
Definition adds_ids (c : stmt) : Prop := match c with SIds _ => True | _ => False end.
