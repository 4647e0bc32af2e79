(** * GlassCache: glasses as Python objects, and the cache of their Abbe numbers
    Model only: no proofs. *)
From Coq Require Import Reals List Bool Arith.
Import ListNotations.
From Verif Require Import XR Arr Prim World Utils.
Open Scope R_scope.

(** materials.py:102-145: a [BasicRefractor], or a [SellmeierRefractor], whose six coefficients are public
    attributes *)
Inductive glass_obj : Type := BasicGlass (n : R) | SellmeierGlass (s : sellmeier).
Definition index_of (g : glass_obj) : R -> xr := match g with BasicGlass n => basic_index n | SellmeierGlass s => sellmeier_index s end.

(** materials.py:77-86, the body of [Glass.abbe].  The wavelengths are Python floats, so a vanishing denominator of
    the Sellmeier equation is a ZeroDivisionError ([None]), and so is the division of the Python floats of a
    [BasicRefractor], whose two indices are equal.  [np.sqrt] makes the indices of a [SellmeierRefractor] numpy
    numbers, whose quotient follows numpy. *)
Definition resonant (s : sellmeier) (w : R) : bool :=
  (reqb (w * w) (c1 s) || reqb (w * w) (c2 s) || reqb (w * w) (c3 s))%bool.
Definition abbe_body (g : glass_obj) : option xr :=
  match g with
  | BasicGlass _ => None
  | SellmeierGlass s =>
      if (resonant s (4861/10000) || resonant s (5893/10000) || resonant s (6563/10000))%bool then None
      else Some (abbe (sellmeier_index s))
  end.

(** materials.py:77 [lru_cache(100)]: one cache for all glasses; its keys are the glasses themselves, compared by
    identity.  The most recently used entry comes first. *)
Definition cache_size : nat := 100.
Definition cache : Type := list (nat * xr).
Definition cached (k : nat) (c : cache) : option xr :=
  match find (fun e => Nat.eqb (fst e) k) c with Some e => Some (snd e) | None => None end.
Definition without (k : nat) (c : cache) : cache := filter (fun e => negb (Nat.eqb (fst e) k)) c.

Record glasses : Type := Glasses { gl_objs : list glass_obj; gl_cache : cache }.
Inductive glass_call : Type :=
| NewGlass (g : glass_obj)                            (* BasicRefractor(n), SellmeierRefractor(b1, ..., c3) *)
| Assign (k : nat) (f : sellmeier -> sellmeier)       (* g.b1 = ..., any of the six attributes *)
| IndexAt (k : nat) (w : R)                           (* g.index_at(w), w an element of an array *)
| Abbe (k : nat).                                     (* g.abbe() *)
(** What the caller sees: nothing, a number, or a ZeroDivisionError *)
Inductive seen_value : Type := Nothing | Number (x : xr) | DivisionByZero.

(** [BasicRefractor] has no coefficients: an assignment to [g.b1] makes an attribute that nothing reads. *)
Definition assign (f : sellmeier -> sellmeier) (g : glass_obj) : glass_obj :=
  match g with BasicGlass n => BasicGlass n | SellmeierGlass s => SellmeierGlass (f s) end.
(** One call; [None] is a glass that is not there. *)
Definition glass_step (c : glass_call) (s : glasses) : option (glasses * seen_value) :=
  match c with
  | NewGlass g => Some (Glasses (gl_objs s ++ [g]) (gl_cache s), Nothing)
  | Assign k f =>
      match nth_error (gl_objs s) k with
      | Some _ => Some (Glasses (list_upd (gl_objs s) k (assign f)) (gl_cache s), Nothing)
      | None => None
      end
  | IndexAt k w => match nth_error (gl_objs s) k with Some g => Some (s, Number (index_of g w)) | None => None end
  | Abbe k =>
      match nth_error (gl_objs s) k with
      | None => None
      | Some g =>
          match cached k (gl_cache s) with
          | Some v => Some (Glasses (gl_objs s) ((k, v) :: without k (gl_cache s)), Number v)
          | None =>
              match abbe_body g with
              | None => Some (s, DivisionByZero)
              | Some v => Some (Glasses (gl_objs s) (firstn cache_size ((k, v) :: gl_cache s)), Number v)
              end
          end
      end
  end.
Fixpoint glass_run (cs : list glass_call) (s : glasses) : option (glasses * list seen_value) :=
  match cs with
  | [] => Some (s, [])
  | c :: r =>
      match glass_step c s with
      | None => None
      | Some (s', v) => match glass_run r s' with None => None | Some (s'', vs) => Some (s'', v :: vs) end
      end
  end.
Definition no_glasses : glasses := Glasses [] [].
