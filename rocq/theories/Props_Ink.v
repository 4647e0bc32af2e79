(** * Property C89, exactly: the colours of the legs by source, whatever was set since the trace *)
From Coq Require Import Reals List Bool ZArith Lia Lra.
Import ListNotations.
From Verif Require Import XR XRFacts Arr Lin Prim Csg CsgProps Surf SpecGeom SpecTree TreeFacts UnionFacts TreeExamples TreeProps World SpecWorld WorldExamples Tracer SpecTrace TraceExamples
  Sources Render SpecRender RenderProps Utils UtilFacts UtilProps UtilProps2 SpecUtils Show Renderers SpecShow ShowFacts ShowProps ShowProps2 ShowProps3 RendererProps RendererExamples.
Open Scope R_scope.

Lemma pick_beyond : forall cs n m id c, ((n + length cs) * m <= id)%nat -> pick_source cs n m id c = c.
Proof.
  induction cs as [|x cs IH]; intros n m id c L; auto. cbn [pick_source length] in *. rewrite IH by (cbn [Nat.add]; nia).
  replace (id <? (n + 1) * m)%nat with false by (symmetry; apply Nat.ltb_ge; nia). rewrite Bool.andb_false_r. reflexivity.
Qed.

(** The colour of a leg is that of the source number (number of the ray) / (rays per source
    as set now); legs whose source number is not below the number of sources keep what
    the fresh array held.  No two sources share a colour. *)
Theorem C89_rays_by_source_exactly : forall asort gooch_of h junk v shaded bounds n t image extent arrows,
  (0 < t_n t)%nat -> show asort gooch_of h junk v BySource shaded bounds n t = Shown image extent (Some arrows) ->
  exists colour_of : nat -> rgb,
    (forall i j, (i < length (t_sources t))%nat -> (j < length (t_sources t))%nat -> colour_of i = colour_of j -> i = j) /\
    forall k w, nth_error (f_rows (get_results t)) k = Some w -> exists a, nth_error arrows k = Some a /\
      let source := (row_id w / t_n t)%nat in
      ((source < length (t_sources t))%nat -> a_ink a = Ink (colour_of source)) /\
      ((length (t_sources t) <= source)%nat -> a_ink a = Ink (junk k)).
Proof.
  intros asort gooch_of h junk v shaded bounds n t image extent arrows P S.
  exists (palette (length (t_sources t))). split; [intros; eapply palette_injective; eauto|].
  destruct (arrow_ink _ _ _ _ _ _ _ _ _ _ _ _ _ S) as (inks & I & A). intros k w W. destruct (A k w W) as (a & NA & NI).
  exists a. split; auto. cbv zeta. split; intro L.
  - rewrite (ink_source _ _ _ _ _ (row_id w / t_n t) (row_id w mod t_n t) I W L) in NI; [congruence|apply Nat.mod_upper_bound; lia|].
    rewrite (Nat.div_mod (row_id w) (t_n t)) at 1 by lia. lia.
  - unfold row_inks in I. destruct (wavelength_to_rgb _ _ _) as [colours|] eqn:C; [|discriminate]. injection I as <-.
    unfold get_results in W. rewrite nth_error_map in NI.
    assert (K : (k < length (f_rows (t_frame t)))%nat) by (apply nth_error_Some; congruence).
    rewrite (nth_combine _ _ _ _ _ k w) in NI; auto.
    2:{ rewrite nth_error_nth' with (d := O) by (rewrite seq_length; auto). rewrite seq_nth by auto. reflexivity. }
    cbn [option_map fst snd] in NI. injection NI as <-. f_equal. apply pick_beyond.
    rewrite rgb_array in C by (unfold default_gamma; lra). injection C as <-. rewrite map_length. unfold linspace. rewrite map_length, seq_length.
    pose proof (Nat.mul_div_le (row_id w) (t_n t)). nia.
Qed.
Print Assumptions C89_rays_by_source_exactly.
(** the case of C89_rays_per_source_changed_refuted: two rays per source set after a trace with one *)
Example C89_exactly_hypotheses : forall asort gooch_of junk, CsgProps.argsort_ok asort -> exists h t t' bounds image extent arrows,
  trace asort h (emit (-1) 1) 5 t = TOk t' /\ (0 < t_n (set_rays_per_source 2 t'))%nat /\
  show asort gooch_of h junk XY BySource false bounds 640 (set_rays_per_source 2 t') = Shown image extent (Some arrows).
Proof.
  intros asort gooch_of junk AS.
  destruct (recoloured asort gooch_of junk AS) as (h & t & t' & bounds & m & w & _ & _ & T & _ & _ & _ & im & im' & ex & ex' & ar & ar' & a & a' & _ & S & _).
  exists h, t, t', bounds, im', ex', ar'. split; [exact T|]. split; [cbn; lia|exact S].
Qed.
