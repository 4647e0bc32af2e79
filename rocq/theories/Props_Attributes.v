(** * C129: the methods of tracers and renderers find the attributes they read *)
From Coq Require Import List String Arith.
Import ListNotations.
From Verif Require Import Attributes AttributesProps.
Open Scope string_scope.

(** The two methods that read what nothing assigns *)
Definition broken (c : class) (m : string) : Prop :=
  (c = RayTracerClass /\ m = "get_system") \/ (c = EdgeRenderClass /\ m = "get_results").
Definition has_method (c : class) (m : string) : Prop := lookup (class_public c) m <> None.

Lemma play_nth c d program k m o fuel r (good : dict -> Prop) :
  good d ->
  (forall m f fuel o d, good d -> lookup (class_public c) m = Some f ->
     match f fuel d o with Done _ d _ => good d | Raised _ d => good d | Unfinished => True end) ->
  nth_error program k = Some (m, o, fuel) -> nth_error (play c d program) k = Some r ->
  exists d', good d' /\
    match lookup (class_public c) m with
    | None => r = Failed (Missing m)
    | Some f => r = match f fuel d' o with Done _ _ _ => Returned | Raised e _ => Failed e | Unfinished => Endless end
    end.
Proof.
  intros G S. revert d program G. induction k as [|k IH]; intros d program G E R.
  - destruct program as [|p program]; [discriminate|]. cbn in E. injection E as ->.
    exists d. split; [exact G|]. cbn [play] in R.
    destruct (lookup (class_public c) m) as [f|]; [|cbn in R; congruence].
    destruct (f fuel d o); cbn in R; congruence.
  - destruct program as [|[[m1 o1] fuel1] program]; [discriminate|]. cbn [nth_error] in E. cbn [play] in R.
    destruct (lookup (class_public c) m1) as [f1|] eqn:L.
    + pose proof (S m1 f1 fuel1 o1 d G L) as G1.
      destruct (f1 fuel1 d o1) as [[] d1 o2|e d1|]; cbn [nth_error] in R.
      * apply (IH d1 program G1 E R).
      * apply (IH d1 program G1 E R).
      * destruct k; discriminate.
    + cbn [nth_error] in R. apply (IH d program G E R).
Qed.

(** Calls that read no missing attribute keep what is known; so do the broken ones. *)
Lemma safe_keeps base names b (c : code unit) d o :
  (safe base (knows base) c (fun _ => knows base) \/ c = bind (read names b) (fun _ => outside) \/ c = read names b) ->
  knows base d ->
  match c d o with Done _ d _ => knows base d | Raised _ d => knows base d | Unfinished => True end.
Proof.
  intros [S|[-> | ->]] K.
  - specialize (S d o K). destruct (c d o) as [x d1 o1|e d1|]; [exact S|exact (proj2 S)|exact I].
  - unfold read, get, bind, outside, skip.
    destruct o as [|[|n] o]; try exact K;
      (destruct (lookup d b) as [v|]; [|destruct (existsb _ _); [|exact K]]); try exact K;
      destruct o as [|[|n] o]; exact K.
  - unfold read, get, bind, outside, skip.
    destruct o as [|[|n] o]; try exact K;
      (destruct (lookup d b) as [v|]; [|destruct (existsb _ _); [|exact K]]); exact K.
Qed.
Lemma string_dec_or (m n : string) : m = n \/ m <> n.
Proof. destruct (string_dec m n); auto. Qed.

(** For each class: no constructor call fails for want of an attribute; nor does any call of
    a public method, in any history of calls, each broken off anywhere by an exception
    (which the caller catches) or not; nor does the loop ever look up a state that the table
    lacks.  Excepted are the two methods of [broken].
    Missing from the full property: those two. *)
Theorem C129_methods_find_their_attributes_partial : forall c,
  c = RayTracerClass \/ c = EdgeRenderClass \/ c = ShadedRendererClass ->
  forall oracle,
  match class_init c [] oracle with
  | Raised e _ => e = Outside
  | Unfinished => False
  | Done _ d _ =>
      forall program k m o fuel r,
        nth_error program k = Some (m, o, fuel) -> nth_error (play c d program) k = Some r ->
        has_method c m -> ~ broken c m ->
        r = Returned \/ r = Failed Outside \/ r = Endless
  end.
Proof.
  assert (Gen : forall c base bad names b,
    safe [] (fun d => d = []) (class_init c) (fun _ => knows base) ->
    (forall d o, class_init c d o <> Unfinished) ->
    (forall m f fuel, lookup (class_public c) m = Some f -> m <> bad ->
       safe base (knows base) (f fuel) (fun _ => knows base)) ->
    (forall f fuel, lookup (class_public c) bad = Some f ->
       f fuel = bind (read names b) (fun _ => outside) \/ f fuel = read names b) ->
    (forall m, has_method c m -> ~ broken c m -> m <> bad) ->
    forall oracle,
    match class_init c [] oracle with
    | Raised e _ => e = Outside
    | Unfinished => False
    | Done _ d _ =>
        forall program k m o fuel r,
          nth_error program k = Some (m, o, fuel) -> nth_error (play c d program) k = Some r ->
          has_method c m -> ~ broken c m ->
          r = Returned \/ r = Failed Outside \/ r = Endless
    end).
  { intros c base bad names b I0 F0 P0 B0 N0 oracle.
    specialize (I0 [] oracle eq_refl). specialize (F0 [] oracle).
    destruct (class_init c [] oracle) as [x d o|e d|].
    2: { exact (proj1 I0). }
    2: { apply F0. reflexivity. }
    clear F0. intros program k m o' fuel r E R H NB. specialize (N0 m H NB).
    destruct (play_nth c d program k m o' fuel r (knows base) I0) as (d' & K' & M); [|exact E|exact R|].
    - intros m1 f1 fuel1 o1 d1 K1 L1. apply (safe_keeps base names b); [|exact K1].
      destruct (string_dec_or m1 bad) as [-> | Nb]; [right; apply B0; exact L1|left; apply (P0 m1); assumption].
    - destruct (lookup (class_public c) m) as [f|] eqn:L; [|exfalso; apply H; exact L].
      pose proof (P0 m f fuel L N0 d' o' K') as S. rewrite M.
      destruct (f fuel d' o') as [y d2 o2|e d2|]; [left; reflexivity|right; left; rewrite (proj1 S); reflexivity|].
      right; right; reflexivity. }
  intros c [-> | [-> | ->]].
  - apply (Gen _ rt_base "get_system" RT.names "_system").
    + exact rt_init_safe.
    + apply ends_rt.
    + exact rt_public_safe.
    + intros f fuel E. injection E as <-. right. reflexivity.
    + intros m _ NB ->. apply NB. left. auto.
  - apply (Gen _ er_base "get_results" ER.names "_frame").
    + exact er_init_safe.
    + apply ends_er.
    + exact er_public_safe.
    + intros f fuel E. injection E as <-. left. reflexivity.
    + intros m _ NB ->. apply NB. right. auto.
  - apply (Gen _ sr_base "" SR.names "").
    + exact sr_init_safe.
    + apply ends_sr.
    + intros m f fuel E _. exact (sr_public_safe m f fuel E).
    + intros f fuel E. discriminate.
    + intros m H _ ->. apply H. reflexivity.
Qed.
Print Assumptions C129_methods_find_their_attributes_partial.

(** The two others never return: whatever was called before, get_system of a RayTracer and
    get_results of an EdgeRender fail with AttributeError, unless interrupted before. *)
Theorem C129_broken_getters_refuted : forall c m oracle u d rest,
  broken c m -> class_init c [] oracle = Done u d rest ->
  forall program k o fuel r,
    nth_error program k = Some (m, o, fuel) -> nth_error (play c d program) k = Some r ->
    (exists a, r = Failed (Missing a)) \/ (r = Failed Outside /\ o <> []).
Proof.
  intros c m oracle u d rest B I0 program k o fuel r E R.
  destruct B as [[-> ->]|[-> ->]].
  - pose proof (rt_init_spares [] oracle eq_refl) as L0. cbn [class_init RayTracerClass] in I0. rewrite I0 in L0.
    destruct (play_nth RayTracerClass d program k "get_system" o fuel r (fun d => lookup d "_system" = None) L0)
      as (d' & L & M); [|exact E|exact R|].
    + intros m1 f1 fuel1 o1 d1 L1 E1. exact (rt_public_spares m1 f1 fuel1 E1 d1 o1 L1).
    + cbn in M. unfold RT.get_system, read, get, bind, outside, skip in M.
      destruct o as [|[|n] o]; rewrite ?L in M; cbn in M; subst r.
      * left. eexists. reflexivity.
      * left. eexists. reflexivity.
      * right. split; [reflexivity|discriminate].
  - pose proof (er_init_spares [] oracle eq_refl) as L0. cbn [class_init EdgeRenderClass] in I0. rewrite I0 in L0.
    destruct (play_nth EdgeRenderClass d program k "get_results" o fuel r (fun d => lookup d "_frame" = None) L0)
      as (d' & L & M); [|exact E|exact R|].
    + intros m1 f1 fuel1 o1 d1 L1 E1. exact (er_public_spares m1 f1 fuel1 E1 d1 o1 L1).
    + cbn in M. unfold ER.get_results, read, get, bind, outside, skip in M.
      destruct o as [|[|n] o]; rewrite ?L in M; cbn in M; subst r.
      * left. eexists. reflexivity.
      * left. eexists. reflexivity.
      * right. split; [reflexivity|discriminate].
Qed.
Print Assumptions C129_broken_getters_refuted.

(** A tracer is built with two components.  A trace is interrupted, shown, traced to its end,
    asked for its system and for its results; an edge renderer is asked before and after
    rendering. *)
Example C129_histories :
  match class_init RayTracerClass [] (repeat 0 28 ++ [2])%list with
  | Done _ d _ =>
      play RayTracerClass d
        [("trace", (repeat 0 20 ++ [1])%list, 50); ("show", [0; 1; 0; 0], 50); ("trace", [], 50);
         ("get_system", [], 0); ("get_results", [], 0); ("trace", [], 2); ("reset", [], 0)]
  | _ => []
  end = [Failed Outside; Returned; Returned; Failed (Missing "_system"); Returned; Endless] /\
  match class_init EdgeRenderClass [] [] with
  | Done _ d _ => play EdgeRenderClass d [("get_results", [], 0); ("render", [], 50); ("get_results", [], 0)]
  | _ => []
  end = [Failed (Missing "_frame"); Returned; Failed (Missing "_frame")] /\
  match class_init ShadedRendererClass [] [0; 0; 0; 0; 1] with
  | Raised e _ => e = Outside
  | _ => False
  end.
Proof. repeat split; reflexivity. Qed.
