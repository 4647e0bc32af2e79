(** * RoundedExamples: corollaries and concrete cases for Props_Rounded *)
From Coq Require Import Reals List Bool ZArith Lia.
Import ListNotations.
From Verif Require Import XR Lin Prim Csg Surf World SpecWorld Tracer SpecTrace CsgProps WorldExamples TraceExamples TraceProps
  Rounded SpecRounded RoundedFacts RoundedProps RoundedAlone RoundedExact.

Lemma trace_always_ends : forall K fuel table limit rays, (1 <= limit)%Z -> (Z.to_nat limit <= fuel)%nat ->
  n_trace K fuel table limit rays <> Running /\
  forall fuel', (fuel <= fuel')%nat -> n_trace K fuel' table limit rays = n_trace K fuel table limit rays.
Proof.
  intros K fuel table limit rays L F. pose proof (trace_ends K fuel table limit rays L F) as E. split; auto.
  intros fuel' LE. apply trace_fuel; auto.
Qed.
Lemma absorbed_last : forall K O, ray_by_ray K O -> forall fuel table limit rays rows, n_trace K fuel table limit rays = Finished rows ->
  NoDup (map fst table) -> forall z s f, In (z, s) table -> o_trace K O s = Some f ->
  (forall b wl n, exists b0, fst (f (b, wl, n)) = k_stop K b0) -> (forall b, o_absorbed K O (o_offset K O (k_stop K b)) = true) ->
  forall i c, nth_error rays i = Some c -> forall j w, nth_error (of_ray i rows) j = Some w -> nr_surf w = z -> nth_error (of_ray i rows) (S j) = None.
Proof.
  intros K O RR fuel table limit rays rows E ND z s f IT OT ST AB i c N. eapply path_absorbed; eauto. eapply traced_alone; eauto.
Qed.
Lemma exact_is_a_case : forall asort h gen fuel t t', trace asort h gen fuel t = TOk t' ->
  exists comps lut, collect (map (shape_of h) (t_comps t)) = Some comps /\ collect (map (entry_of h) (t_lut t)) = Some lut /\
  ray_by_ray (exact asort comps) (exact_one asort comps) /\
  n_trace (exact asort comps) fuel lut (t_limit t) (map (up asort comps) (source_rays gen t)) =
  Finished (map (up_row asort comps) (f_rows (get_results t'))).
Proof.
  intros asort h gen fuel t t' T. destruct (exact_trace asort h gen fuel t t' T) as (comps & lut & C & L & E).
  exists comps, lut. repeat split; auto; apply exact_ray_by_ray.
Qed.

Lemma two_generations : forall asort, exists comps lut rays rows,
  ray_by_ray (exact asort comps) (exact_one asort comps) /\
  Forall (fun c : ncol (exact asort comps) => n_gen c = 0%nat) rays /\
  n_trace (exact asort comps) 10 lut 10 rays = Finished rows /\
  of_ray 0 rows = map (up_row asort comps) [out_row 1; back_row 1].
Proof.
  intro asort. destruct (mirror_case asort) as (h & t & t' & (_ & NT) & _ & T & F).
  assert (LI : t_limit t = 10%Z).
  { unfold new_tracer in NT. destruct (collect _); [|discriminate]. injection NT as <-. reflexivity. }
  destruct (exact_is_a_case _ _ _ _ _ _ T) as (comps & lut & _ & _ & RR & E). rewrite LI in E.
  exists comps, lut, (map (up asort comps) (source_rays (emit 1 1) t)), (map (up_row asort comps) [out_row 1; back_row 1]).
  split; [exact RR|]. split; [|split; [|reflexivity]].
  - apply Forall_forall. intros c J. apply in_map_iff in J. destruct J as (c0 & <- & J). unfold source_rays in J. apply in_concat in J.
    destruct J as (l & J1 & J2). apply in_map_iff in J1. destruct J1 as (s & <- & _). apply repeat_spec in J2. subst c0. reflexivity.
  - rewrite F in E. rewrite <- E. apply trace_fuel; [lia|]. rewrite E. discriminate.
Qed.

(** ** A coarse arithmetic *)
Definition coarse_hit (b : Z * Z) : Z * Z :=
  if (Z.ltb (snd b) 0 && Z.ltb 0 (fst b))%bool then (fst b, 5%Z)
  else if (Z.ltb 0 (snd b) && Z.ltb (fst b) 8)%bool then ((8 - fst b)%Z, 6%Z) else (0%Z, (-1)%Z).
Definition coarse_one_trace (s : bool) : option ((Z * Z) * Z * Z -> (Z * Z) * Z) :=
  Some (fun q => let '((b, _), n) := q in ((fst b, if s then (- snd b)%Z else 0%Z), n)).
Definition coarse_advance (q : Z * (Z * Z)) : Z * Z := ((2 * ((fst (snd q) + fst q * snd (snd q)) / 2))%Z, snd (snd q)).
Definition coarse_offset (b : Z * Z) : Z * Z := ((fst b + snd b)%Z, snd b).
Definition coarse_absorbed (b : Z * Z) : bool := Z.eqb (snd b) 0.
Definition coarse : kernels :=
  Kernels Z Z (Z * Z) bool fst (fun b => (fst b, 0%Z)) (at_pos (0%Z, (-1)%Z) coarse_hit) (at_pos (0, 0)%Z coarse_advance)
    (fun s xs => match coarse_one_trace s with None => None | Some f => Some (fun i => at_pos ((0, 0), 0)%Z f xs i) end)
    (at_pos false coarse_absorbed) (fun x => Z.ltb x 10) (at_pos 0%Z snd) (at_pos (0, 0)%Z coarse_offset).
Definition coarse_one : one_ray coarse := OneRay coarse coarse_hit coarse_advance coarse_one_trace coarse_absorbed snd coarse_offset.
Definition coarse_table : list (Z * bool) := [(5%Z, true); (6%Z, false)].
Definition coarse_ray (p d : Z) : ncol coarse := @NCol coarse (p, d) 0 100%Z 7%Z 1%Z 0.
Definition coarse_rays : list (ncol coarse) := [coarse_ray 5 (-1); coarse_ray 3 1; coarse_ray 9 1].
Lemma coarse_case :
  ray_by_ray coarse coarse_one /\
  exists rows, n_trace coarse 10 coarse_table 10 coarse_rays = Finished rows /\ map nr_gen (of_ray 0 rows) = [0; 1]%nat /\
  map nr_surf (of_ray 0 rows) = [5; 6]%Z /\ map nr_gen (of_ray 1 rows) = [0]%nat /\ of_ray 2 rows = [].
Proof.
  split.
  - unfold ray_by_ray; cbn. repeat (split; [apply at_pos_by_itself|]).
    intros s xs. eexists. split; [reflexivity|]. intros i x E. unfold at_pos. rewrite E. reflexivity.
  - eexists. split; [vm_compute; reflexivity|]. repeat split; reflexivity.
Qed.
