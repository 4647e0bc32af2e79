(** * SpecRounded: what the theorems about the tracer with open arithmetic say
    Specification only. *)
From Coq Require Import List Bool ZArith.
Import ListNotations.
From Verif Require Import Rounded.

Arguments n_beam {K}. Arguments n_gen {K}. Arguments n_int {K}. Arguments n_wl {K}. Arguments n_idx {K}. Arguments n_id {K}.
Arguments nr_gen {K}. Arguments nr_int {K}. Arguments nr_wl {K}. Arguments nr_idx {K}. Arguments nr_id {K}. Arguments nr_surf {K}.
Arguments nr_start {K}. Arguments nr_end {K}. Arguments nr_tilt {K}. Arguments NCol {K}. Arguments NRow {K}.
Arguments Finished {K}. Arguments Raised {K}. Arguments Running {K}.

Section Spec.
  Context {K : kernels}.
  (** The rows of the ray with id [i], in the order of the frame *)
  Definition of_ray (i : nat) (rows : list (nrow K)) : list (nrow K) := filter (fun w => Nat.eqb (nr_id w) i) rows.
  (** [w] stands before [w'] in a frame ordered by generation, then by id *)
  Definition before (w w' : nrow K) : Prop := (nr_gen w < nr_gen w')%nat \/ nr_gen w = nr_gen w' /\ (nr_id w < nr_id w')%nat.
  (** Equal but for the intensity *)
  Definition alike_rays (c c' : ncol K) : Prop :=
    n_beam c = n_beam c' /\ n_gen c = n_gen c' /\ n_wl c = n_wl c' /\ n_idx c = n_idx c' /\ n_id c = n_id c'.
  Definition alike_rows (w w' : nrow K) : Prop :=
    nr_gen w = nr_gen w' /\ nr_wl w = nr_wl w' /\ nr_idx w = nr_idx w' /\ nr_id w = nr_id w' /\ nr_surf w = nr_surf w' /\
    nr_start w = nr_start w' /\ nr_end w = nr_end w' /\ nr_tilt w = nr_tilt w'.
  Definition alike (o o' : outcome K) : Prop :=
    match o, o' with
    | Finished rows, Finished rows' => Forall2 alike_rows rows rows'
    | Raised, Raised => True
    | Running, Running => True
    | _, _ => False
    end.
End Spec.

(** ** Arithmetic that treats every ray of an array by itself *)
Definition by_itself {A B : Type} (k : list A -> nat -> B) (k1 : A -> B) : Prop :=
  forall xs i x, nth_error xs i = Some x -> k xs i = k1 x.
(** The numerical steps for a single ray; [o_trace s] is [None] for a material without a trace method *)
Record one_ray (K : kernels) : Type := OneRay {
  o_hit : beam K -> num K * Z;
  o_advance : num K * beam K -> beam K;
  o_trace : surface K -> option (beam K * num K * num K -> beam K * num K);
  o_absorbed : beam K -> bool;
  o_tilt : beam K -> point K;
  o_offset : beam K -> beam K
}.
Definition ray_by_ray (K : kernels) (O : one_ray K) : Prop :=
  by_itself (k_hit K) (o_hit K O) /\ by_itself (k_advance K) (o_advance K O) /\ by_itself (k_absorbed K) (o_absorbed K O) /\
  by_itself (k_tilt K) (o_tilt K O) /\ by_itself (k_offset K) (o_offset K O) /\
  forall s xs, match o_trace K O s with
               | None => xs <> [] -> k_trace K s xs = None
               | Some f => exists g, k_trace K s xs = Some g /\ forall i x, nth_error xs i = Some x -> g i = f x
               end.

(** ** The rows of one ray that is followed alone *)
Section Alone.
  Variable K : kernels.
  Variable O : one_ray K.
  Variable table : list (Z * surface K).
  Variable limit : Z.
  (** The surface with the id of the hit acts on the ray *)
  Fixpoint met (h : num K * Z) (table : list (Z * surface K)) (c : ncol K) : option (ncol K) :=
    match table with
    | [] => Some c
    | (id, s) :: r =>
        if Z.eqb (snd h) id then
          match o_trace K O s with
          | None => None
          | Some f =>
              let q := f (o_advance K O (fst h, n_beam c), n_wl c, n_idx c) in
              met h r (set_index K (snd q) (set_beam K (fst q) c))
          end
        else met h r c
    end.
  Definition leg (c c' : ncol K) (surface : Z) : nrow K :=
    NRow (n_gen c) (n_int c) (n_wl c) (n_idx c) (n_id c) surface (k_origin K (n_beam c)) (k_origin K (n_beam c')) (o_tilt K O (n_beam c)).
  Inductive path : nat -> ncol K -> list (nrow K) -> Prop :=
  | Path_end : forall g c, o_absorbed K O (n_beam c) = true \/ snd (o_hit K O (n_beam c)) = (-1)%Z -> path g c []
  | Path_last : forall g c c', o_absorbed K O (n_beam c) = false -> snd (o_hit K O (n_beam c)) <> (-1)%Z ->
      met (o_hit K O (n_beam c)) table c = Some c' -> Z.of_nat (S g) = limit -> path g c [leg c c' (snd (o_hit K O (n_beam c)))]
  | Path_leg : forall g c c' rest, o_absorbed K O (n_beam c) = false -> snd (o_hit K O (n_beam c)) <> (-1)%Z ->
      met (o_hit K O (n_beam c)) table c = Some c' -> Z.of_nat (S g) <> limit ->
      path (S g) (set_beam K (o_offset K O (n_beam c')) (set_generation K (S g) c')) rest -> path g c (leg c c' (snd (o_hit K O (n_beam c))) :: rest).
End Alone.
