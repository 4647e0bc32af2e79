(** * AttributesProps: what is known of an instance's attributes along its methods *)
From Coq Require Import List String Arith Bool Lia.
Import ListNotations.
From Verif Require Import Attributes.
Open Scope string_scope.

(** What is known: for each name, that it is set ([None]) or its value *)
Definition facts : Type := list (string * option value).
Definition knows (k : facts) (d : dict) : Prop :=
  forall a f, lookup k a = Some f -> match f with Some v => lookup d a = Some v | None => lookup d a <> None end.
Definition fact_of (v : value) : option value := match v with Other => None | _ => Some v end.
Fixpoint learn (k : facts) (a : string) (f : option value) : facts :=
  match k with
  | [] => [(a, f)]
  | (b, g) :: k => if String.eqb a b then (a, f) :: k else (b, g) :: learn k a f
  end.
Lemma lookup_learn k a f b : lookup (learn k a f) b = if String.eqb b a then Some f else lookup k b.
Proof.
  induction k as [|[x g] k IH]; cbn [learn lookup]; [destruct (String.eqb b a); reflexivity|].
  destruct (String.eqb a x) eqn:E; cbn [lookup].
  - apply String.eqb_eq in E. subst x. destruct (String.eqb b a); reflexivity.
  - rewrite IH. destruct (String.eqb b x) eqn:F; [|reflexivity].
    destruct (String.eqb b a) eqn:G; [|reflexivity].
    apply String.eqb_eq in F, G. subst. rewrite String.eqb_refl in E. discriminate.
Qed.
Lemma knows_put k d a v : knows k d -> knows (learn k a (fact_of v)) ((a, v) :: d).
Proof.
  intros H b f. rewrite lookup_learn. cbn [lookup]. destruct (String.eqb b a).
  - intro E. injection E as <-. destruct v; cbn; congruence.
  - apply H.
Qed.

Definition is_other (v : value) : bool := match v with Other => true | _ => false end.
(** [k] says all that [k0] says, where [k0] gives no values but of [a] *)
Definition covers (k0 k : facts) : Prop :=
  forall a f, lookup k0 a = Some f ->
    match f with None => exists g, lookup k a = Some g | Some v => lookup k a = Some (Some v) end.
Lemma covers_knows k0 k d : covers k0 k -> knows k d -> knows k0 d.
Proof.
  intros C K a f E. specialize (C a f E). destruct f as [v|].
  - apply (K _ _ C).
  - destruct C as [g C]. pose proof (K _ _ C) as H. destruct g; congruence.
Qed.
Fixpoint in_order (k0 : facts) : Prop :=
  match k0 with [] => True | (a, _) :: k0 => lookup k0 a = None /\ in_order k0 end.
Lemma covers_cons a f k0 k :
  match f with None => exists g, lookup k a = Some g | Some v => lookup k a = Some (Some v) end ->
  covers k0 k -> covers ((a, f) :: k0) k.
Proof.
  intros H C b g. cbn [lookup]. destruct (String.eqb b a) eqn:E.
  - apply String.eqb_eq in E. subst. intro F. injection F as <-. exact H.
  - apply C.
Qed.
Lemma covers_nil k : covers [] k.
Proof. intros a f E. discriminate. Qed.

Section Safe.
  Variable names : list string.
  (** What a caller may rely on between two calls *)
  Variable base : facts.
  Definition safe {A : Type} (P : dict -> Prop) (c : code A) (Q : A -> dict -> Prop) : Prop :=
    forall d o, P d ->
      match c d o with
      | Done x d _ => Q x d
      | Raised e d => e = Outside /\ knows base d
      | Unfinished => True
      end.
  Lemma safe_bind {A B : Type} P (c : code A) Q (f : A -> code B) R :
    safe P c Q -> (forall x, safe (Q x) (f x) R) -> safe P (bind c f) R.
  Proof.
    intros H1 H2 d o p. unfold bind. specialize (H1 d o p). destruct (c d o) as [x d1 o1|e d1|].
    - apply H2. exact H1.
    - exact H1.
    - exact I.
  Qed.
  Lemma safe_pre {A : Type} (P P' : dict -> Prop) (c : code A) Q :
    (forall d, P d -> P' d) -> safe P' c Q -> safe P c Q.
  Proof. intros H S d o p. apply S. auto. Qed.
  Lemma safe_post {A : Type} P (c : code A) (Q Q' : A -> dict -> Prop) :
    (forall x d, Q x d -> Q' x d) -> safe P c Q -> safe P c Q'.
  Proof. intros H S d o p. specialize (S d o p). destruct (c d o); auto. Qed.
  Lemma safe_skip P : safe P skip (fun _ => P).
  Proof. intros d o p. exact p. Qed.
  Lemma safe_outside k : covers base k -> safe (knows k) outside (fun _ => knows k).
  Proof.
    intros C d o p. unfold outside. destruct o as [|[|n] o]; try exact p.
    split; [reflexivity|]. exact (covers_knows _ _ _ C p).
  Qed.
  Lemma safe_get k a v : covers base k -> lookup k a = Some (Some v) ->
    safe (knows k) (get names a) (fun w d => w = v /\ knows k d).
  Proof.
    intros C E. unfold get. eapply safe_bind; [apply safe_outside; exact C|].
    intros [] d o p. rewrite (p _ _ E). split; [reflexivity|exact p].
  Qed.
  Lemma safe_read k a : covers base k ->
    (match lookup k a with Some _ => true | None => existsb (String.eqb a) names end) = true ->
    safe (knows k) (read names a) (fun _ => knows k).
  Proof.
    intros C E. unfold read, get. eapply safe_bind; [|intro; apply safe_skip].
    eapply safe_bind; [apply safe_outside; exact C|].
    intros [] d o p. destruct (lookup k a) as [f|] eqn:L.
    - pose proof (p _ _ L) as H. destruct (lookup d a) as [w|] eqn:D; [exact p|].
      destruct f; congruence.
    - destruct (lookup d a) as [w|]; [exact p|]. rewrite E. exact p.
  Qed.
  Lemma safe_put k a v : covers base k ->
    safe (knows k) (put a v) (fun _ => knows (learn k a (fact_of v))).
  Proof.
    intros C. unfold put. eapply safe_bind; [apply safe_outside; exact C|].
    intros [] d o p. apply knows_put. exact p.
  Qed.
  Lemma safe_either P c1 c2 Q : safe P c1 Q -> safe P c2 Q -> safe P (either c1 c2) Q.
  Proof.
    intros H1 H2 d o p. unfold either, bind, pick.
    destruct o as [|[|n] o]; [apply H1|apply H1|apply H2]; exact p.
  Qed.
  Lemma safe_times P c : safe P c (fun _ => P) -> safe P (times c) (fun _ => P).
  Proof.
    intros H. assert (R : forall n, safe P (repeats n c) (fun _ => P)).
    { induction n as [|n IH]; cbn [repeats]; [apply safe_skip|].
      eapply safe_bind; [exact H|]. intros []. exact IH. }
    intros d o p. unfold times, bind, pick. destruct o as [|n o]; apply R; exact p.
  Qed.

  (** The loop: in each state something is known, and each state's method leads to such a state *)
  Variable owner : code unit.
  Variable body : string -> option (code unit).
  Variable table : list (string * string).
  Variable at_state : string -> facts.
  Hypothesis At_covers : forall s, covers base (at_state s).
  Hypothesis At_state : forall s, lookup (at_state s) "_state" = Some (Some (Member s)).
  Hypothesis At_table : forall s, lookup (at_state s) "_state_machine" = Some (Some (Table table)).
  Hypothesis Owner : forall s, safe (knows (at_state s)) owner (fun _ => knows (at_state s)).
  Variable ok : string -> Prop.
  Hypothesis Body : forall s, ok s -> s <> "IDLE" ->
    exists m c, lookup table s = Some m /\ body m = Some c /\
      safe (knows (at_state s)) c (fun _ d => exists s', ok s' /\ knows (at_state s') d).
  Lemma safe_states fuel : forall s, ok s ->
    safe (knows (at_state s)) (run_states names owner body fuel) (fun _ => knows (at_state "IDLE")).
  Proof.
    induction fuel as [|fuel IH]; intros s Hs; cbn [run_states].
    { intros d o p. exact I. }
    eapply safe_bind; [apply safe_get; [apply At_covers|apply At_state]|].
    intros v. eapply safe_pre with (P' := fun d => v = Member s /\ knows (at_state s) d); [auto|].
    intros d o [-> p]. revert d o p.
    change (safe (knows (at_state s)) (bind owner (fun _ =>
      if String.eqb s "IDLE" then skip
      else bind (get names "_state_machine") (fun t => bind (get names "_state") (fun w =>
             match t, w with
             | Table t, Member s =>
                 match lookup t s with
                 | None => fail BadState
                 | Some m => match body m with
                             | None => fail BadState
                             | Some c => bind c (fun _ => run_states names owner body fuel)
                             end
                 end
             | _, _ => fail BadState
             end)))) (fun _ => knows (at_state "IDLE"))).
    eapply safe_bind; [apply Owner|]. intros [].
    destruct (String.eqb s "IDLE") eqn:E.
    { apply String.eqb_eq in E. subst s. apply safe_skip. }
    assert (N : s <> "IDLE") by (intros ->; rewrite String.eqb_refl in E; discriminate).
    eapply safe_bind; [apply safe_get; [apply At_covers|apply At_table]|].
    intros t d o [-> p]. revert d o p.
    change (safe (knows (at_state s)) (bind (get names "_state") (fun w =>
             match w with
             | Member s =>
                 match lookup table s with
                 | None => fail BadState
                 | Some m => match body m with
                             | None => fail BadState
                             | Some c => bind c (fun _ => run_states names owner body fuel)
                             end
                 end
             | _ => fail BadState
             end)) (fun _ => knows (at_state "IDLE"))).
    eapply safe_bind; [apply safe_get; [apply At_covers|apply At_state]|].
    intros w d o [-> p]. destruct (Body s Hs N) as (m & c & Em & Ec & S). rewrite Em, Ec.
    revert d o p.
    change (safe (knows (at_state s)) (bind c (fun _ => run_states names owner body fuel))
      (fun _ => knows (at_state "IDLE"))).
    eapply safe_bind; [exact S|]. intros [] d o (s' & Hs' & p). apply (IH s' Hs' d o p).
  Qed.
End Safe.

(** Proving [covers] for lists written out *)
Ltac covers_tac :=
  repeat (apply covers_cons; [cbn; first [reflexivity | eexists; reflexivity]|]); apply covers_nil.
(** Walking through a method.  [base] and the facts are written out. *)
Ltac tidy := cbv beta iota zeta delta [learn fact_of String.eqb Ascii.eqb Bool.eqb].
Ltac walk :=
  lazymatch goal with
  | |- safe _ _ (bind _ _) _ => eapply safe_bind; [walk | tidy; intros []; walk]
  | |- safe _ _ outside _ => eapply safe_outside; covers_tac
  | |- safe _ _ (read _ _) _ => eapply safe_read; [covers_tac | reflexivity]
  | |- safe _ _ (put _ _) _ => eapply safe_put; covers_tac
  | |- safe _ _ skip _ => eapply safe_skip
  | |- safe _ _ (times _) _ => apply safe_times; walk
  | |- safe _ _ (either _ _) _ => apply safe_either; walk
  end.
(** to an end that is given *)
Ltac walk_to fin :=
  lazymatch goal with
  | |- safe _ _ (bind _ _) _ => eapply safe_bind; [walk | tidy; intros []; walk_to fin]
  | |- safe _ _ (either _ _) _ => apply safe_either; walk_to fin
  | |- _ => eapply safe_post; [|walk]; tidy; fin
  end.
Ltac by_covers := intros ? ? HK; refine (covers_knows _ _ _ _ HK); covers_tac.

(** Between two calls *)
Definition rt_base : facts :=
  [("_frame", None); ("_state", None); ("_generation_number", None); ("_simulation_complete", None);
   ("_sources", None); ("_components", None); ("_rays_per_source", None); ("_generation_limit", None);
   ("_world_index", None); ("_state_machine", Some (Table RT.table)); ("_ray_set", None); ("_next_ray_set", None);
   ("_surface_lut", None)].
Definition er_base : facts :=
  [("_state", None); ("_simulation_complete", None); ("_results", None); ("_camera", None); ("_shapes", None);
   ("_state_machine", Some (Table ER.table))].
Definition sr_base : facts :=
  [("_state", None); ("_simulation_complete", None); ("_results", None); ("_light", None); ("_camera", None);
   ("_shapes", None); ("_surface_lut", None); ("_state_machine", Some (Table SR.table))].

Definition in_state (base : facts) (s : string) : facts := learn base "_state" (Some (Member s)).

(** ** RayTracer *)
Definition rt_at (s : string) : facts :=
  (in_state rt_base s ++ if String.eqb s "INTERACT" then [("_hit_distances", None); ("_hit_surfaces", None)] else [])%list.
Definition rt_ok (s : string) : Prop := In s ["IDLE"; "INITIALIZE"; "PROPAGATE"; "INTERACT"; "FINISH"].
Lemma rt_covers s : covers rt_base (rt_at s).
Proof. unfold rt_at, in_state, rt_base. tidy. covers_tac. Qed.
Lemma rt_init_safe : safe [] (fun d => d = []) RT.init (fun _ => knows rt_base).
Proof.
  eapply safe_pre with (P' := knows []). { intros d -> a f E. discriminate. }
  unfold RT.init. walk_to by_covers.
Qed.
Ltac goes_to at_ s := intros ? ? HK; exists s; split; [cbn; tauto|]; refine (covers_knows _ _ _ _ HK);
  cbv beta iota zeta delta [at_ in_state rt_at rt_base learn String.eqb Ascii.eqb Bool.eqb app]; covers_tac.
Lemma rt_body_safe s : rt_ok s -> s <> "IDLE" ->
  exists m c, lookup RT.table s = Some m /\ RT.body m = Some c /\
    safe rt_base (knows (rt_at s)) c (fun _ d => exists s', rt_ok s' /\ knows (rt_at s') d).
Proof.
  intros H N. destruct H as [<-|[<-|[<-|[<-|[<-|[]]]]]]; [exfalso; apply N; reflexivity| | | |].
  - exists "_st_initialize", RT.st_initialize. split; [reflexivity|]. split; [reflexivity|].
    cbv beta iota zeta delta [rt_at in_state rt_base learn String.eqb Ascii.eqb Bool.eqb app]. unfold RT.st_initialize, RT.reset.
    walk_to ltac:(goes_to rt_at "PROPAGATE").
  - exists "_st_propagate", RT.st_propagate. split; [reflexivity|]. split; [reflexivity|].
    cbv beta iota zeta delta [rt_at in_state rt_base learn String.eqb Ascii.eqb Bool.eqb app]. unfold RT.st_propagate.
    walk_to ltac:(goes_to rt_at "INTERACT").
  - exists "_st_interact", RT.st_interact. split; [reflexivity|]. split; [reflexivity|].
    cbv beta iota zeta delta [rt_at in_state rt_base learn String.eqb Ascii.eqb Bool.eqb app]. unfold RT.st_interact.
    walk_to ltac:(first [goes_to rt_at "FINISH" | goes_to rt_at "PROPAGATE"]).
  - exists "_st_finish", RT.st_finish. split; [reflexivity|]. split; [reflexivity|].
    cbv beta iota zeta delta [rt_at in_state rt_base learn String.eqb Ascii.eqb Bool.eqb app]. unfold RT.st_finish.
    walk_to ltac:(goes_to rt_at "IDLE").
Qed.
Ltac open_facts :=
  cbv beta iota zeta delta [in_state rt_at rt_base er_base sr_base learn String.eqb Ascii.eqb Bool.eqb app].
Lemma rt_states_safe fuel s : rt_ok s ->
  safe rt_base (knows (rt_at s)) (run_states RT.names skip RT.body fuel) (fun _ => knows (rt_at "IDLE")).
Proof.
  apply safe_states with (table := RT.table) (ok := rt_ok).
  - exact rt_covers.
  - intro s0. reflexivity.
  - intro s0. reflexivity.
  - intro s0. apply safe_skip.
  - exact rt_body_safe.
Qed.
Lemma rt_trace_safe fuel : safe rt_base (knows rt_base) (RT.trace fuel) (fun _ => knows rt_base).
Proof.
  unfold RT.trace. eapply safe_bind; [apply safe_put; open_facts; covers_tac|]. intros [].
  eapply safe_bind; [apply (rt_states_safe fuel "INITIALIZE"); cbn; tauto|]. intros [].
  open_facts. walk_to by_covers.
Qed.
Lemma rt_public_safe m f fuel : lookup RT.public m = Some f -> m <> "get_system" ->
  safe rt_base (knows rt_base) (f fuel) (fun _ => knows rt_base).
Proof.
  cbn [lookup RT.public]. intros E N.
  repeat match type of E with
  | (if String.eqb ?x ?y then _ else _) = _ =>
      destruct (String.eqb x y) eqn:X; [apply String.eqb_eq in X; injection E as <-|clear X]
  end; try (discriminate E); try (exfalso; apply N; exact X); try apply rt_trace_safe; clear;
  unfold RT.reset, RT.set_rays_per_source, RT.get_rays_per_source, RT.set_generation_limit, RT.get_generation_limit,
    RT.load_components, RT.get_results, RT.calculate_source_ids, RT.show; open_facts; walk_to by_covers.
Qed.

(** ** The renderers *)
Definition rn_at (base : facts) (s : string) : facts :=
  (in_state base s ++
   (if String.eqb s "PROPAGATE" then [("_rays", None)]
    else if String.eqb s "INTERACT" then [("_rays", None); ("_hit_distances", None); ("_hit_surfaces", None)]
    else []))%list.
Ltac open_rn :=
  cbv beta iota zeta delta [rn_at in_state er_base sr_base learn String.eqb Ascii.eqb Bool.eqb app].
Ltac rn_to base s := intros ? ? HK; exists s; split; [cbn; tauto|]; refine (covers_knows _ _ _ _ HK);
  open_rn; covers_tac.
Lemma er_covers s : covers er_base (rn_at er_base s).
Proof. open_rn. covers_tac. Qed.
Lemma sr_covers s : covers sr_base (rn_at sr_base s).
Proof. open_rn. covers_tac. Qed.
Lemma er_init_safe : safe [] (fun d => d = []) ER.init (fun _ => knows er_base).
Proof.
  eapply safe_pre with (P' := knows []). { intros d -> a f E. discriminate. }
  unfold ER.init, ER.make_table. walk_to by_covers.
Qed.
Lemma sr_init_safe : safe [] (fun d => d = []) SR.init (fun _ => knows sr_base).
Proof.
  eapply safe_pre with (P' := knows []). { intros d -> a f E. discriminate. }
  unfold SR.init, SR.make_table. walk_to by_covers.
Qed.
Lemma er_body_safe s : rt_ok s -> s <> "IDLE" ->
  exists m c, lookup ER.table s = Some m /\ ER.body m = Some c /\
    safe er_base (knows (rn_at er_base s)) c (fun _ d => exists s', rt_ok s' /\ knows (rn_at er_base s') d).
Proof.
  intros H N. destruct H as [<-|[<-|[<-|[<-|[<-|[]]]]]]; [exfalso; apply N; reflexivity| | | |].
  - exists "_st_initialize", ER.st_initialize. split; [reflexivity|]. split; [reflexivity|].
    open_rn. unfold ER.st_initialize, ER.reset. walk_to ltac:(rn_to er_base "PROPAGATE").
  - exists "_st_propagate", ER.st_propagate. split; [reflexivity|]. split; [reflexivity|].
    open_rn. unfold ER.st_propagate. walk_to ltac:(rn_to er_base "INTERACT").
  - exists "_st_interact", ER.st_interact. split; [reflexivity|]. split; [reflexivity|].
    open_rn. unfold ER.st_interact. walk_to ltac:(rn_to er_base "FINISH").
  - exists "_st_finish", ER.st_finish. split; [reflexivity|]. split; [reflexivity|].
    open_rn. unfold ER.st_finish. walk_to ltac:(rn_to er_base "IDLE").
Qed.
Lemma sr_body_safe s : rt_ok s -> s <> "IDLE" ->
  exists m c, lookup SR.table s = Some m /\ SR.body m = Some c /\
    safe sr_base (knows (rn_at sr_base s)) c (fun _ d => exists s', rt_ok s' /\ knows (rn_at sr_base s') d).
Proof.
  intros H N. destruct H as [<-|[<-|[<-|[<-|[<-|[]]]]]]; [exfalso; apply N; reflexivity| | | |].
  - exists "_st_initialize", SR.st_initialize. split; [reflexivity|]. split; [reflexivity|].
    open_rn. unfold SR.st_initialize, SR.reset. walk_to ltac:(rn_to sr_base "PROPAGATE").
  - exists "_st_propagate", SR.st_propagate. split; [reflexivity|]. split; [reflexivity|].
    open_rn. unfold SR.st_propagate. walk_to ltac:(rn_to sr_base "INTERACT").
  - exists "_st_interact", SR.st_interact. split; [reflexivity|]. split; [reflexivity|].
    open_rn. unfold SR.st_interact. walk_to ltac:(rn_to sr_base "FINISH").
  - exists "_st_finish", SR.st_finish. split; [reflexivity|]. split; [reflexivity|].
    open_rn. unfold SR.st_finish. walk_to ltac:(rn_to sr_base "IDLE").
Qed.
Lemma er_render_safe fuel : safe er_base (knows er_base) (ER.render fuel) (fun _ => knows er_base).
Proof.
  unfold ER.render. eapply safe_bind; [apply safe_read; [open_rn; covers_tac|reflexivity]|]. intros [].
  eapply safe_bind; [apply safe_put; open_rn; covers_tac|]. intros [].
  eapply safe_bind.
  { apply (safe_states ER.names er_base (read ER.names "States") ER.body ER.table (rn_at er_base)) with (ok := rt_ok) (s := "INITIALIZE").
    - exact er_covers.
    - intro. reflexivity.
    - intro. reflexivity.
    - intro. apply safe_read; [apply er_covers|]. destruct (lookup _ _); reflexivity.
    - exact er_body_safe.
    - cbn; tauto. }
  intros []. open_rn. walk_to by_covers.
Qed.
Lemma sr_render_safe fuel : safe sr_base (knows sr_base) (SR.render fuel) (fun _ => knows sr_base).
Proof.
  unfold SR.render. eapply safe_bind; [apply safe_read; [open_rn; covers_tac|reflexivity]|]. intros [].
  eapply safe_bind; [apply safe_put; open_rn; covers_tac|]. intros [].
  eapply safe_bind.
  { apply (safe_states SR.names sr_base (read SR.names "States") SR.body SR.table (rn_at sr_base)) with (ok := rt_ok) (s := "INITIALIZE").
    - exact sr_covers.
    - intro. reflexivity.
    - intro. reflexivity.
    - intro. apply safe_read; [apply sr_covers|]. destruct (lookup _ _); reflexivity.
    - exact sr_body_safe.
    - cbn; tauto. }
  intros []. open_rn. walk_to by_covers.
Qed.
Lemma er_public_safe m f fuel : lookup ER.public m = Some f -> m <> "get_results" ->
  safe er_base (knows er_base) (f fuel) (fun _ => knows er_base).
Proof.
  cbn [lookup ER.public]. intros E N.
  repeat match type of E with
  | (if String.eqb ?x ?y then _ else _) = _ =>
      destruct (String.eqb x y) eqn:X; [apply String.eqb_eq in X; injection E as <-|clear X]
  end; try (discriminate E); try (exfalso; apply N; exact X); try apply er_render_safe; clear;
  unfold ER.reset; open_rn; walk_to by_covers.
Qed.
Lemma sr_public_safe m f fuel : lookup SR.public m = Some f ->
  safe sr_base (knows sr_base) (f fuel) (fun _ => knows sr_base).
Proof.
  cbn [lookup SR.public]. intros E.
  repeat match type of E with
  | (if String.eqb ?x ?y then _ else _) = _ =>
      destruct (String.eqb x y) eqn:X; [apply String.eqb_eq in X; injection E as <-|clear X]
  end; try (discriminate E); try apply sr_render_safe; clear;
  unfold SR.reset; open_rn; walk_to by_covers.
Qed.

(** ** Names that nothing assigns *)
Section Spares.
  Variable a : string.
  Definition spares {A : Type} (c : code A) : Prop :=
    forall d o, lookup d a = None ->
      match c d o with Done _ d _ => lookup d a = None | Raised _ d => lookup d a = None | Unfinished => True end.
  Lemma spares_bind {A B : Type} (c : code A) (f : A -> code B) :
    spares c -> (forall x, spares (f x)) -> spares (bind c f).
  Proof.
    intros H1 H2 d o p. unfold bind. specialize (H1 d o p). destruct (c d o) as [x d1 o1|e d1|]; auto.
    apply H2. exact H1.
  Qed.
  Lemma spares_skip : spares skip.
  Proof. intros d o p. exact p. Qed.
  Lemma spares_fail {A : Type} e : spares (@fail A e).
  Proof. intros d o p. exact p. Qed.
  Lemma spares_outside : spares outside.
  Proof. intros d o p. unfold outside. destruct o as [|[|n] o]; exact p. Qed.
  Lemma spares_get names b : spares (get names b).
  Proof.
    apply spares_bind; [apply spares_outside|]. intros _ d o p.
    destruct (lookup d b); [exact p|]. destruct (existsb _ _); exact p.
  Qed.
  Lemma spares_read names b : spares (read names b).
  Proof. apply spares_bind; [apply spares_get|]. intros _. apply spares_skip. Qed.
  Lemma spares_put b v : String.eqb a b = false -> spares (put b v).
  Proof.
    intro N. apply spares_bind; [apply spares_outside|]. intros _ d o p.
    cbn [lookup]. rewrite N. exact p.
  Qed.
  Lemma spares_either c1 c2 : spares c1 -> spares c2 -> spares (either c1 c2).
  Proof.
    intros H1 H2 d o p. unfold either, bind, pick.
    destruct o as [|[|n] o]; [apply H1|apply H1|apply H2]; exact p.
  Qed.
  Lemma spares_times c : spares c -> spares (times c).
  Proof.
    intros H. assert (R : forall n, spares (repeats n c)).
    { induction n as [|n IH]; cbn [repeats]; [apply spares_skip|]. apply spares_bind; auto. }
    intros d o p. unfold times, bind, pick. destruct o as [|n o]; apply R; exact p.
  Qed.
  Lemma spares_states names owner body fuel :
    spares owner -> (forall m c, body m = Some c -> spares c) -> spares (run_states names owner body fuel).
  Proof.
    intros O B. induction fuel as [|fuel IH]; cbn [run_states]; [intros d o p; exact I|].
    apply spares_bind; [apply spares_get|]. intros v.
    apply spares_bind; [exact O|]. intros _.
    destruct v as [s|t|]; try apply spares_fail.
    destruct (String.eqb s "IDLE"); [apply spares_skip|].
    apply spares_bind; [apply spares_get|]. intros t.
    apply spares_bind; [apply spares_get|]. intros w.
    destruct t as [s1|t|]; try apply spares_fail.
    destruct w as [s1|t1|]; try apply spares_fail.
    destruct (lookup t s1) as [m|]; [|apply spares_fail].
    destruct (body m) as [c|] eqn:E; [|apply spares_fail].
    apply spares_bind; [exact (B m c E)|]. intros _. exact IH.
  Qed.
End Spares.
Ltac spare :=
  lazymatch goal with
  | |- spares _ (bind _ _) => apply spares_bind; [spare | intros []; spare]
  | |- spares _ outside => apply spares_outside
  | |- spares _ (read _ _) => apply spares_read
  | |- spares _ (put _ _) => apply spares_put; reflexivity
  | |- spares _ skip => apply spares_skip
  | |- spares _ (times _) => apply spares_times; spare
  | |- spares _ (either _ _) => apply spares_either; spare
  | |- _ => idtac
  end.
Ltac by_name :=
  repeat match goal with
  | E : (if String.eqb ?x ?y then _ else _) = Some _ |- _ => destruct (String.eqb x y); [injection E as <-|]
  | E : None = Some _ |- _ => discriminate E
  end.
Lemma rt_init_spares : spares "_system" RT.init.
Proof. unfold RT.init. spare. Qed.
Lemma rt_public_spares m f fuel : lookup RT.public m = Some f -> spares "_system" (f fuel).
Proof.
  cbn [lookup RT.public]. intros E. by_name;
  unfold RT.reset, RT.set_rays_per_source, RT.get_rays_per_source, RT.set_generation_limit, RT.get_generation_limit,
    RT.load_components, RT.get_system, RT.get_results, RT.calculate_source_ids, RT.show, RT.trace; spare.
  apply spares_states; [apply spares_skip|]. clear. intros m c. unfold RT.body. cbn [lookup]. intro E. by_name;
  unfold RT.st_initialize, RT.st_propagate, RT.st_interact, RT.st_finish, RT.reset; spare.
Qed.
Lemma er_init_spares : spares "_frame" ER.init.
Proof. unfold ER.init, ER.make_table. spare. Qed.
Lemma er_public_spares m f fuel : lookup ER.public m = Some f -> spares "_frame" (f fuel).
Proof.
  cbn [lookup ER.public]. intros E. by_name; unfold ER.reset, ER.get_results, ER.render; spare.
  apply spares_states; [apply spares_read|]. clear. intros m c. unfold ER.body. cbn [lookup]. intro E. by_name;
  unfold ER.st_initialize, ER.st_propagate, ER.st_interact, ER.st_trim, ER.st_finish, ER.reset; spare.
Qed.

(** ** Constructors end *)
Definition ends {A : Type} (c : code A) : Prop := forall d o, c d o <> Unfinished.
Lemma ends_bind {A B : Type} (c : code A) (f : A -> code B) : ends c -> (forall x, ends (f x)) -> ends (bind c f).
Proof.
  intros H1 H2 d o. unfold bind. specialize (H1 d o). destruct (c d o) as [x d1 o1|e d1|]; try discriminate.
  - apply H2.
  - congruence.
Qed.
Lemma ends_skip : ends skip.
Proof. intros d o. discriminate. Qed.
Lemma ends_outside : ends outside.
Proof. intros d o. unfold outside. destruct o as [|[|n] o]; discriminate. Qed.
Lemma ends_read names b : ends (read names b).
Proof.
  apply ends_bind; [|intros _; apply ends_skip]. apply ends_bind; [apply ends_outside|]. intros _ d o.
  destruct (lookup d b); [discriminate|]. destruct (existsb _ _); discriminate.
Qed.
Lemma ends_put b v : ends (put b v).
Proof. apply ends_bind; [apply ends_outside|]. intros _ d o. discriminate. Qed.
Lemma ends_times c : ends c -> ends (times c).
Proof.
  intros H. assert (R : forall n, ends (repeats n c)).
  { induction n as [|n IH]; cbn [repeats]; [apply ends_skip|]. apply ends_bind; auto. }
  intros d o. unfold times, bind, pick. destruct o as [|n o]; apply R.
Qed.
Ltac end_tac :=
  lazymatch goal with
  | |- ends (bind _ _) => apply ends_bind; [end_tac | intros []; end_tac]
  | |- ends outside => apply ends_outside
  | |- ends (read _ _) => apply ends_read
  | |- ends (put _ _) => apply ends_put
  | |- ends skip => apply ends_skip
  | |- ends (times _) => apply ends_times; end_tac
  end.
Lemma ends_rt : ends RT.init.
Proof. unfold RT.init. end_tac. Qed.
Lemma ends_er : ends ER.init.
Proof. unfold ER.init, ER.make_table. end_tac. Qed.
Lemma ends_sr : ends SR.init.
Proof. unfold SR.init, SR.make_table. end_tac. Qed.
