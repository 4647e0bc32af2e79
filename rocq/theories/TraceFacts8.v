(** * TraceFacts8: scenes built by programs, and traces of scenes *)
From Coq Require Import Reals List Bool ZArith Lia Lra Psatz.
Import ListNotations.
From Verif Require Import XR Arr Lin LinFacts Ops Prim Csg Surf SpecGeom SpecTree World SpecWorld SpecOptics Tracer SpecTrace
  XRFacts PrimFacts PrimFacts2 TreeFacts NormalFacts OpsFacts CsgProps
  WorldFacts WorldFacts2 WorldFacts3 WorldFacts4
  TraceFacts TraceFacts2 TraceFacts3 TraceFacts4 TraceFacts5 TraceFacts6 TraceFacts7.
Open Scope R_scope.

(** ** Surfaces and CSG objects never change kind or id *)
Definition keeps (h h' : heap) : Prop :=
  (length (h_objs h) <= length (h_objs h'))%nat /\
  forall x o, get h x = Some o -> is_shape (o_kind o) ->
    exists o', get h' x = Some o' /\ o_id o' = o_id o /\ o_kind o' = o_kind o.
Lemma keeps_refl : forall h, keeps h h.
Proof. intros h. split; eauto. Qed.
Lemma keeps_trans : forall a b c, keeps a b -> keeps b c -> keeps a c.
Proof.
  intros a b c (L1 & K1) (L2 & K2). split; [lia|]. intros x o G S.
  destruct (K1 x o G S) as (o1 & G1 & I1 & E1). rewrite <- E1 in S.
  destruct (K2 x o1 G1 S) as (o2 & G2 & I2 & E2). exists o2. repeat split; congruence.
Qed.
Lemma keeps_hrel : forall (Q : loc -> obj -> obj -> Prop) h h',
  (forall x a b, Q x a b -> o_id b = o_id a /\ o_kind b = o_kind a) -> hrel Q h h' -> keeps h h'.
Proof.
  intros Q h h' HQ (_ & L & H). split; [rewrite L; auto|].
  intros x o G _. destruct (H x o G) as (o' & G' & K). exists o'. apply HQ in K. tauto.
Qed.
Lemma keeps_alloc : forall k h, keeps h (alloc k h).
Proof.
  intros k h. split; [rewrite len_alloc; lia|]. intros x o G _. exists o. split; auto.
  rewrite get_alloc_old; auto. eapply get_lt; eauto.
Qed.
Lemma keeps_upd : forall h l f, (forall o, o_id (f o) = o_id o /\ o_kind (f o) = o_kind o) -> keeps h (upd h l f).
Proof.
  intros h l f F. split; [rewrite len_upd; auto|]. intros x o G _. destruct (Nat.eq_dec x l) as [->|N].
  - exists (f o). rewrite (get_upd_same _ _ _ _ G). split; auto.
  - exists o. rewrite get_upd_other; auto.
Qed.

Lemma run_call_keeps : forall asort c h h', res_heap (run_call asort c h) = Some h' -> keeps h h'.
Proof.
  intros asort c h h' H.
  assert (EX : forall h1 h2, exts h1 h2 -> keeps h1 h2).
  { intros h1 h2. apply keeps_hrel. intros x a b (A & B & _). auto. }
  assert (SK : forall h1 h2, sks h1 h2 -> keeps h1 h2).
  { intros h1 h2. apply keeps_hrel. intros x a b (A & B & _). auto. }
  destruct c as [|p m|ms|g ms|op a b|l o|l|l]; cbn [run_call] in H.
  - injection H as <-. apply keeps_alloc.
  - unfold new_surface in H. destruct (prim_init p); injection H as <-.
    + eapply keeps_trans; [apply keeps_alloc|]. eapply keeps_trans; apply keeps_upd; auto.
    + split; simpl; eauto.
  - unfold new_group in H. destruct (valid_locs h ms); injection H as <-; [apply keeps_alloc|apply keeps_refl].
  - unfold group_set in H. destruct (get h g) as [o|] eqn:G; [|injection H as <-; apply keeps_refl].
    destruct (o_kind o) eqn:K; try (injection H as <-; apply keeps_refl).
    destruct (valid_locs h ms); injection H as <-; [|apply keeps_refl].
    split; [rewrite len_upd; auto|]. intros x o' G' S. exists o'. split; auto. rewrite get_upd_other; auto.
    intros ->. rewrite G in G'. inversion G'; subst. rewrite K in S. exact S.
  - destruct (new_csg_exts _ _ _ _ _ _ H) as [->|X]; [apply keeps_refl|].
    eapply keeps_trans; [apply keeps_alloc|]. eapply keeps_trans; [|apply EX, X]. apply keeps_upd; auto.
  - unfold apply_motion in H. destruct (motion_matrix o); [|injection H as <-; apply keeps_refl].
    apply transform_sks in H. auto.
  - apply set_normals_exts in H. auto.
  - apply set_normals_exts in H. auto.
Qed.
Lemma run_catching_keeps : forall asort cs h h', run_catching asort cs h = Some h' -> keeps h h'.
Proof.
  intros asort. induction cs as [|c cs IH]; intros h h' H; simpl in H; [injection H as <-; apply keeps_refl|].
  destruct (run_call asort c h) as [h1|e h1|] eqn:E; try discriminate;
    (eapply keeps_trans; [apply (run_call_keeps asort c h h1); rewrite E; reflexivity|auto]).
Qed.
Lemma run_prog_catching : forall asort cs h h', run_prog asort cs h = Ok h' -> run_catching asort cs h = Some h'.
Proof.
  intros asort. induction cs as [|c cs IH]; intros h h' H; simpl in *; [congruence|].
  destruct (run_call asort c h); simpl in H; try discriminate. auto.
Qed.

Lemma lut_keeps : forall h h', keeps h h' -> forall n m l x, (n <= m)%nat -> lut_fuel n h l = Some x -> lut_fuel m h' l = Some x.
Proof.
  intros h h' (L & K). induction n as [|n IH]; intros m l x N H; [discriminate|]. destruct m as [|m]; [lia|].
  cbn [lut_fuel] in *. destruct (get h l) as [o|] eqn:G; [|discriminate].
  destruct (o_kind o) as [|p mt|op a b|ms] eqn:KI; try discriminate.
  - destruct (K l o G) as (o' & -> & -> & ->); [rewrite KI; exact I|]. rewrite KI. auto.
  - destruct (K l o G) as (o' & -> & -> & ->); [rewrite KI; exact I|]. rewrite KI.
    destruct (lut_fuel n h a) eqn:A; [|discriminate]. destruct (lut_fuel n h b) eqn:B; [|discriminate].
    rewrite (IH m a _ ltac:(lia) A), (IH m b _ ltac:(lia) B). auto.
Qed.
Lemma collect_lut_keeps : forall h h' ls luts, keeps h h' -> collect (map (lut_of h) ls) = Some luts ->
  collect (map (lut_of h') ls) = Some luts.
Proof.
  intros h h' ls luts K. revert luts. induction ls as [|l ls IH]; intros luts H; simpl in *; auto.
  destruct (lut_of h l) as [x|] eqn:E; [|discriminate].
  assert (E' : lut_of h' l = Some x).
  { unfold lut_of in *. destruct K as (KL & K2). refine (lut_keeps h h' (conj KL K2) _ _ _ _ _ E). unfold depth. lia. }
  rewrite E'. destruct (collect (map (lut_of h) ls)) as [xs|]; [|discriminate]. rewrite (IH xs); auto.
Qed.
Lemma table_keeps : forall h h' t, keeps h h' -> table_current h t -> table_current h' t.
Proof. intros h h' t K (luts & C & E). exists luts. split; auto. eapply collect_lut_keeps; eauto. Qed.
Lemma new_tracer_table : forall h ss cs n lim t, new_tracer h ss cs n lim = Some t ->
  table_current h t /\ t_comps t = cs /\ t_sources t = ss /\ t_n t = n /\ t_limit t = lim.
Proof.
  intros h ss cs n lim t H. unfold new_tracer in H. destruct (collect (map (lut_of h) cs)) as [luts|] eqn:E; [|discriminate].
  inversion H; subst. cbn. repeat split; auto. exists luts. auto.
Qed.

(** ** Every surface of a program's objects is in order *)
Section Kinds.
  Variable Q : prim -> material -> Prop.
  Definition all_kinds (h : heap) : Prop := forall x o p m, get h x = Some o -> o_kind o = KSurf p m -> Q p m.
  Definition kind_call (c : call) : Prop := match c with CSurface p m => Q p m | _ => True end.
  Lemma run_call_kinds : forall asort c h h', kind_call c -> all_kinds h -> run_call asort c h = Ok h' -> all_kinds h'.
  Proof.
    assert (EX : forall h h', exts h h' -> all_kinds h -> all_kinds h').
    { intros h h' E A x o' p m G' K'. destruct (hrel_get_back _ _ _ _ _ E G') as (o & G & (_ & K & _)). rewrite K in K'. eauto. }
    assert (KW : forall h h', kws h h' -> all_kinds h -> all_kinds h').
    { intros h h' E A x o' p m G' K'. destruct (hrel_get_back _ _ _ _ _ E G') as (o & G & [K _]). rewrite K in K'. eauto. }
    assert (AL : forall k h, all_kinds h -> match k with KSurf p m => Q p m | _ => True end -> all_kinds (alloc k h)).
    { intros k h A Hk x o p m G K. destruct (get_alloc _ _ _ _ G) as [G1|(-> & ->)]; [eauto|]. cbn [o_kind] in K. subst k. auto. }
    assert (UP : forall h l f, (forall o, o_kind (f o) = o_kind o) -> all_kinds h -> all_kinds (upd h l f)).
    { intros h l f Hf A x o p m G K. rewrite get_upd in G. destruct (x =? l)%nat; [|eauto]. destruct (get h x) as [o1|] eqn:G1; [|discriminate].
      injection G as <-. rewrite Hf in K. eauto. }
    intros asort c h h' N A H. destruct c as [|p m|ms|g ms|op a b|l o|l|l]; cbn [run_call] in H.
    - injection H as <-. apply AL; auto.
    - unfold new_surface in H. destruct (prim_init p); [|discriminate]. injection H as <-. apply UP; [auto|]. apply UP; [auto|]. apply AL; auto.
    - unfold new_group in H. destruct (valid_locs h ms); [|discriminate]. injection H as <-. apply AL; auto.
    - unfold group_set in H. destruct (get h g) as [o|]; [|discriminate]. destruct (o_kind o); try discriminate.
      destruct (valid_locs h ms); [|discriminate]. injection H as <-. intros x o' p m G K. rewrite get_upd in G. destruct (x =? g)%nat; [|eauto].
      destruct (get h x); [|discriminate]. injection G as <-. discriminate.
    - destruct (new_csg_exts asort op a b h h') as [->|X]; [rewrite H; auto|auto|]. apply (EX _ _ X). unfold csg_start. apply UP; auto.
    - unfold apply_motion in H. destruct (motion_matrix o) as [t|]; [|discriminate].
      apply (KW h); auto. apply sks_kws, (transform_sks asort (depth h) l t). rewrite H; auto.
    - apply (EX h); auto. apply (set_normals_exts (depth h) (-1) l). rewrite H; auto.
    - apply (EX h); auto. apply (set_normals_exts (depth h) 1 l). rewrite H; auto.
  Qed.
  Lemma run_prog_kinds : forall asort cs h h', Forall kind_call cs -> all_kinds h -> run_prog asort cs h = Ok h' -> all_kinds h'.
  Proof.
    intros asort cs. induction cs as [|c cs IH]; intros h h' F A H.
    - injection H as <-. auto.
    - inversion F; subst. simpl in H. destruct (run_call asort c h) as [h1|e h1|] eqn:E; try discriminate. apply (IH h1); auto.
      eapply run_call_kinds; eauto.
  Qed.
End Kinds.

(** the normals of every object point out or in *)
Definition signed (h : heap) : Prop := forall x o, get h x = Some o -> o_nscale o = 1 \/ o_nscale o = -1.
Lemma signed_hrel : forall (Q : loc -> obj -> obj -> Prop) h h', (forall x a b, Q x a b -> o_nscale b = o_nscale a) ->
  hrel Q h h' -> signed h -> signed h'.
Proof. intros Q h h' HQ H S x o' G. destruct (hrel_get_back _ _ _ _ _ H G) as (o & G0 & K). apply HQ in K. rewrite K. eauto. Qed.
Lemma signed_upd : forall h l f, (forall o, o_nscale o = 1 \/ o_nscale o = -1 -> o_nscale (f o) = 1 \/ o_nscale (f o) = -1) ->
  signed h -> signed (upd h l f).
Proof.
  intros h l f F S x o G. rewrite get_upd in G. destruct (x =? l)%nat; [|eauto].
  destruct (get h x) as [o1|] eqn:G1; [|discriminate]. injection G as <-. apply F. eauto.
Qed.
Lemma signed_handler : forall asort w h h', run_handler asort w h = Ok h' -> signed h -> signed h'.
Proof.
  intros asort w h h' H S. destruct w as [l|l|l]; cbn [run_handler] in H.
  - destruct (get h l) as [o|]; [|discriminate]. cbv zeta in H. destruct (rltb _ _); [discriminate|].
    destruct (minv (o_world o)); [|discriminate]. injection H as <-. repeat (apply signed_upd; [auto|]). auto.
  - destruct (get h l) as [o|]; [|discriminate]. destruct (o_kind o); try discriminate. injection H as <-.
    apply signed_upd; auto.
  - destruct (get h l) as [o|]; [|discriminate]. destruct (o_kind o); try discriminate.
    repeat match type of H with match box_of ?a ?b with _ => _ end = _ => destruct (box_of a b); try discriminate end.
    injection H as <-. apply signed_upd; auto.
Qed.
Lemma signed_all : forall asort ws h h', run_all asort ws h = Ok h' -> signed h -> signed h'.
Proof.
  intros asort. induction ws as [|w ws IH]; intros h h' H S; simpl in H; [injection H as <-; exact S|].
  destruct (run_handler asort w h) as [h1|e h1|] eqn:E; simpl in H; try discriminate.
  eapply IH; eauto. eapply signed_handler; eauto.
Qed.
Lemma signed_transform : forall asort n l t h h', transform asort n l t h = Ok h' -> signed h -> signed h'.
Proof.
  intros asort. induction n as [|n IH]; intros l t h h' H S; [discriminate|]. cbn [transform] in H.
  destruct (get h l) as [o|]; [|discriminate].
  assert (E : forall ls h h', each (fun l => transform asort n l t) ls h = Ok h' -> signed h -> signed h').
  { induction ls as [|y ls IL]; intros h1 h2 H1 S1; simpl in H1; [injection H1 as <-; exact S1|].
    destruct (transform asort n y t h1) as [h3|e h3|] eqn:ET; simpl in H1; try discriminate. eauto. }
  assert (A : forall h1 h2, append_own asort l t h1 = Ok h2 -> signed h1 -> signed h2).
  { intros h1 h2 H1 S1. unfold append_own in H1. destruct (get h1 l); [|discriminate].
    eapply signed_all; eauto. apply signed_upd; auto. }
  destruct (append_own asort l t h) as [h1|e h1|] eqn:EA; cbn [bind] in H; try discriminate. eauto.
Qed.
Lemma signed_normals : forall n k l h h', k = 1 \/ k = -1 -> set_normals n k l h = Ok h' -> signed h -> signed h'.
Proof.
  induction n as [|n IH]; intros k l h h' K H S; [discriminate|]. cbn [set_normals] in H.
  destruct (get h l) as [o|]; [|discriminate]. destruct (o_kind o); try discriminate.
  - injection H as <-. apply signed_upd; auto.
  - destruct (set_normals n k l0 h) as [h1|e h1|] eqn:E; cbn [bind] in H; try discriminate. eauto.
Qed.
Lemma signed_attach : forall c p h h', attach_to c p h = Ok h' -> signed h -> signed h'.
Proof.
  intros c p h h' H S. unfold attach_to in H. destruct (get h c) as [oc|]; [|discriminate]. destruct (get h p); [|discriminate].
  destruct (o_kind oc); try discriminate; injection H as <-; apply signed_upd; auto.
Qed.
Lemma signed_alloc : forall k h, signed h -> signed (alloc k h).
Proof. intros k h S x o G. destruct (get_alloc _ _ _ _ G) as [G1|(-> & ->)]; [eauto|]. left; reflexivity. Qed.
Lemma run_call_signed : forall asort c h h', run_call asort c h = Ok h' -> signed h -> signed h'.
Proof.
  intros asort c h h' H S. destruct c as [|p m|ms|g ms|op a b|l o|l|l]; cbn [run_call] in H.
  - injection H as <-. apply signed_alloc; auto.
  - unfold new_surface in H. destruct (prim_init p); [|discriminate]. injection H as <-.
    apply signed_upd; [auto|]. apply signed_upd; [auto|]. apply signed_alloc; auto.
  - unfold new_group in H. destruct (valid_locs h ms); [|discriminate]. injection H as <-. apply signed_alloc; auto.
  - unfold group_set in H. destruct (get h g) as [o|]; [|discriminate]. destruct (o_kind o); try discriminate.
    destruct (valid_locs h ms); [|discriminate]. injection H as <-. apply signed_upd; auto.
  - unfold new_csg in H. destruct (negb (valid_locs h [a; b])); [discriminate|]. cbv zeta in H. fold (csg_start op a b h) in H.
    destruct (attach_to a (fresh h) (csg_start op a b h)) as [h3|e h3|] eqn:E3; cbn [bind] in H; try discriminate.
    destruct (attach_to b (fresh h) h3) as [h4|e h4|] eqn:E4; cbn [bind] in H; try discriminate.
    assert (S4 : signed h4).
    { eapply signed_attach; eauto. eapply signed_attach; eauto. unfold csg_start. apply signed_upd; auto. apply signed_alloc; auto. }
    destruct (match op with DIFFERENCE => set_normals (depth h4) (-1) b h4 | _ => Ok h4 end) as [h5|e h5|] eqn:E5; cbn [bind] in H; try discriminate.
    eapply signed_handler; eauto. destruct op; try (injection E5 as <-; exact S4). apply (signed_normals _ (-1) _ _ _ (or_intror eq_refl) E5 S4).
  - unfold apply_motion in H. destruct (motion_matrix o) as [t|]; [|discriminate]. eapply signed_transform; eauto.
  - apply (signed_normals _ (-1) _ _ _ (or_intror eq_refl) H S).
  - apply (signed_normals _ 1 _ _ _ (or_introl eq_refl) H S).
Qed.
Lemma run_prog_signed : forall asort cs h h', run_prog asort cs h = Ok h' -> signed h -> signed h'.
Proof.
  intros asort. induction cs as [|c cs IH]; intros h h' H S; simpl in H; [injection H as <-; exact S|].
  destruct (run_call asort c h) as [h1|e h1|] eqn:E; simpl in H; try discriminate.
  eapply IH; eauto. eapply run_call_signed; eauto.
Qed.

(** the calls a well-formed scene is made with *)
Lemma prog_parts_ok : forall asort (P : R -> Prop) cs h l s f, Forall (fit_call P) cs -> run_prog asort cs empty_heap = Ok h ->
  shape_of h l = Some s -> In f (surface_ids s) -> part_ok P f.
Proof.
  intros asort P cs h l s f F H. unfold shape_of. generalize (depth h). intro n.
  pose proof (run_prog_good _ _ _ _ empty_good H) as A.
  assert (Af : all_affine h).
  { refine (run_prog_affine _ _ _ _ _ empty_affine H). revert F. apply Forall_impl. intros []; simpl; auto. }
  assert (K : all_kinds (fun p m => prim_ok p /\ capped p /\ optical P m) h).
  { refine (run_prog_kinds _ _ _ _ _ _ _ H); [|intros [|x] o p m G; discriminate]. revert F. apply Forall_impl. intros []; simpl; auto. }
  assert (S : signed h) by (eapply run_prog_signed; eauto; intros [|x] o G; discriminate).
  revert l s. induction n as [|n IH]; intros l s E I; [discriminate|]. simpl in E.
  destruct (get h l) as [o|] eqn:G; [|discriminate]. destruct (o_kind o) as [|p m|op a b|ms] eqn:KO; try discriminate.
  - injection E as <-. simpl in I. destruct I as [<-|[]]. destruct (K _ _ _ _ G KO) as (K1 & K2 & K3).
    unfold part_ok; cbn [s_prim s_world s_obj s_nscale s_mat]. repeat (split; [solve [eauto]|]).
    split; [apply (A _ _ G)|]. eauto.
  - destruct (shape_fuel n h a) as [sa|] eqn:Ea; [|discriminate]. destruct (shape_fuel n h b) as [sb|] eqn:Eb; [|discriminate].
    injection E as <-. simpl in I. apply in_app_iff in I. destruct I; eauto.
Qed.

(** ** Distinct parts have distinct ids *)
Definition is_surf (h : heap) (l : loc) : bool :=
  match get h l with Some o => match o_kind o with KSurf _ _ => true | _ => false end | None => false end.
Lemma lut_parts : forall h n l x, lut_fuel n h l = Some x -> map snd x = filter (is_surf h) (parts_upto n h l) /\
  Forall (fun e => exists o, get h (snd e) = Some o /\ fst e = Z.of_nat (o_id o)) x.
Proof.
  intros h. induction n as [|n IH]; intros l x H; [discriminate|]. cbn [lut_fuel parts_upto] in *. cbn [filter].
  unfold is_surf at 1. destruct (get h l) as [o|] eqn:G; [|discriminate].
  destruct (o_kind o) as [|p m|op a b|ms] eqn:K; try discriminate.
  - inversion H; subst. cbn [children flat_map]. split; [reflexivity|]. repeat constructor. exists o. auto.
  - destruct (lut_fuel n h a) as [xa|] eqn:A; [|discriminate]. destruct (lut_fuel n h b) as [xb|] eqn:B; [|discriminate].
    inversion H; subst. cbn [children flat_map]. rewrite app_nil_r, filter_app, map_app.
    destruct (IH _ _ A) as (-> & FA). destruct (IH _ _ B) as (-> & FB). split; auto. apply Forall_app; auto.
Qed.
Lemma NoDup_filter' : forall A (f : A -> bool) l, NoDup l -> NoDup (filter f l).
Proof. intros A f l. apply NoDup_filter. Qed.
Lemma concat_luts : forall h ls luts, collect (map (lut_of h) ls) = Some luts ->
  map snd (concat luts) = filter (is_surf h) (flat_map (parts h) ls) /\
  Forall (fun e => exists o, get h (snd e) = Some o /\ fst e = Z.of_nat (o_id o)) (concat luts).
Proof.
  intros h ls. induction ls as [|l ls IH]; intros luts H; simpl in H.
  - inversion H. simpl. auto.
  - destruct (lut_of h l) as [x|] eqn:E; [|discriminate]. destruct (collect (map (lut_of h) ls)) as [xs|]; [|discriminate].
    inversion H; subst. cbn [concat flat_map]. destruct (IH _ eq_refl) as (A & B). destruct (lut_parts _ _ _ _ E) as (C & D).
    rewrite filter_app, map_app, A, C. split; [reflexivity|]. apply Forall_app; auto.
Qed.
Lemma distinct_ids : forall h e1, NoDup (ids h) ->
  Forall (fun e => exists o, get h (snd e) = Some o /\ fst e = Z.of_nat (o_id o)) e1 -> NoDup (map snd e1) -> NoDup (map fst e1).
Proof.
  intros h. induction e1 as [|[i l] e1 IH]; intros N F D; simpl in *; [constructor|].
  inversion F as [|? ? F1 F2]; subst. inversion D as [|? ? D1 D2]; subst. constructor; auto.
  intro I. apply in_map_iff in I. destruct I as ([i' l'] & E & I). simpl in E. subst i'. apply D1.
  rewrite Forall_forall in F2. destruct (F2 _ I) as (o' & G' & E'). destruct F1 as (o & G & E). simpl in *.
  assert (EL : l = l'); [|rewrite EL; apply (in_map snd) in I; exact I].
  rewrite E in E'. apply Nat2Z.inj in E'. unfold ids in N. rewrite NoDup_nth_error in N. apply N.
  - rewrite map_length. eapply get_lt; eauto.
  - rewrite !nth_error_map. unfold get in *. rewrite G, G'. simpl. congruence.
Qed.

(** A tracer set up on a scene built by calls, and used after further calls, sees a scene. *)
Theorem scene_reached : forall asort (P : R -> Prop) cs cs' h0 h ss ls n lim t0 t,
  Forall (fit_call P) (cs ++ cs') ->
  run_prog asort cs empty_heap = Ok h0 -> run_prog asort cs' h0 = Ok h ->
  new_tracer h0 ss ls n lim = Some t0 -> NoDup (flat_map (parts h0) ls) ->
  t_comps t = ls -> t_lut t = t_lut t0 ->
  exists comps, scene h t comps /\ forall s, In s (flat_map surface_ids comps) -> part_ok P s.
Proof.
  intros asort P cs cs' h0 h ss ls n lim t0 t F H0 H1 NT ND TC TL.
  assert (HH : run_prog asort (cs ++ cs') empty_heap = Ok h) by (rewrite run_prog_app, H0; exact H1).
  destruct (new_tracer_table _ _ _ _ _ _ NT) as ((luts & CL & EL) & C0 & _). rewrite C0 in CL.
  pose proof (run_catching_keeps _ _ _ _ (run_prog_catching _ _ _ _ H1)) as KP.
  pose proof (collect_lut_keeps _ _ _ _ KP CL) as CL'.
  assert (SH : exists comps, collect (map (shape_of h) ls) = Some comps).
  { clear - CL'. revert luts CL'. induction ls as [|l ls IH]; intros luts H; simpl in *; [eauto|].
    destruct (lut_of h l) as [x|] eqn:E; [|discriminate].
    destruct (collect (map (lut_of h) ls)) as [xs|]; [|discriminate]. destruct (IH _ eq_refl) as (comps & ->).
    assert (SE : forall n l x, lut_fuel n h l = Some x -> exists s, shape_fuel n h l = Some s).
    { clear. induction n as [|n IH]; intros l x H; [discriminate|]. cbn [lut_fuel shape_fuel] in *.
      destruct (get h l) as [o|]; [|discriminate]. destruct (o_kind o); try discriminate; [eauto|].
      destruct (lut_fuel n h l0) eqn:A; [|discriminate]. destruct (lut_fuel n h r) eqn:B; [|discriminate].
      destruct (IH _ _ A) as (sa & ->). destruct (IH _ _ B) as (sb & ->). eauto. }
    destruct (SE _ _ _ E) as (s & ES). unfold shape_of. rewrite ES. eauto. }
  destruct SH as (comps & SH). exists comps.
  destruct (table_entries _ _ _ _ SH CL') as (_ & KE & _).
  split.
  - split; [apply collect_some; rewrite TC; auto|]. split.
    + exists luts. rewrite TC, TL. auto.
    + rewrite <- KE. destruct (concat_luts _ _ _ CL) as (MS & FO). apply (distinct_ids h0); auto.
      * destruct (run_catching_ok _ _ _ _ (run_prog_catching _ _ _ _ H0) empty_ids_ok) as ((N & _) & _). auto.
      * rewrite MS. apply NoDup_filter. auto.
  - intros s I. apply in_flat_map in I. destruct I as (sh & IS & I).
    assert (EX : exists l, shape_of h l = Some sh).
    { apply collect_some in SH. assert (K : In (Some sh) (map Some comps)) by (apply in_map; auto).
      rewrite <- SH in K. apply in_map_iff in K. destruct K as (l & E & _). eauto. }
    destruct EX as (l & E). eapply prog_parts_ok; eauto.
Qed.

(** ** Traces of scenes *)
Lemma scene_nodup : forall h t comps, scene h t comps -> NoDup (map fst (t_lut t)).
Proof.
  intros h t comps (SH & (luts & CL & EL) & ND). rewrite EL.
  assert (C : collect (map (shape_of h) (t_comps t)) = Some comps) by (rewrite SH; apply collect_map_some).
  destruct (table_entries _ _ _ _ C CL) as (_ & KE & _). rewrite KE. auto.
Qed.
Lemma map_some_inj : forall A (a b : list A), map Some a = map Some b -> a = b.
Proof. induction a as [|x a IH]; intros [|y b] H; simpl in H; try discriminate; auto. inversion H. f_equal; auto. Qed.

Theorem scene_histories : forall asort, argsort_ok asort ->
  forall h gen fuel t t' comps, trace asort h gen fuel t = TOk t' -> scene h t comps ->
  forall i c, nth_error (source_rays gen t) i = Some c ->
    history asort comps (flat_map surface_ids comps) (t_limit t) 0 (with_id i c) (rows_with_id i (f_rows (get_results t'))).
Proof.
  intros asort AS h gen fuel t t' comps T SC i c N. pose proof (scene_nodup _ _ _ SC) as ND. destruct SC as (SH & TC & _).
  destruct (trace_histories asort AS _ _ _ _ _ T TC ND) as (comps' & SH' & HI & _).
  assert (comps' = comps) by (apply map_some_inj; congruence). subst. auto.
Qed.

Theorem scene_legs : forall asort, argsort_ok asort ->
  forall h gen fuel t t' comps, trace asort h gen fuel t = TOk t' -> scene h t comps ->
  (forall c, In c (source_rays gen t) -> ray_ok c /\ c_gen c = O) ->
  (forall s, In s (flat_map surface_ids comps) ->
     part_ok (fun wl => exists c, In c (source_rays gen t) /\ c_wl c = wl) s) ->
  forall i c rows, nth_error (source_rays gen t) i = Some c -> rows = rows_with_id i (f_rows (get_results t')) ->
    (forall w, nth_error rows 0 = Some w -> first_row (with_id i c) w) /\
    (forall j w, nth_error rows j = Some w -> leg asort comps w) /\
    (forall j w w', nth_error rows j = Some w -> nth_error rows (S j) = Some w' ->
       follows w w' /\ bounce (flat_map surface_ids comps) w w') /\
    (forall j w, nth_error rows j = Some w -> nth_error rows (S j) = None -> over asort comps (t_limit t) w) /\
    (rows = [] -> unit (direction (c_ray c)) -> no_hit asort comps (c_ray c)).
Proof.
  intros asort AS h gen fuel t t' comps T SC RO PO i c rows N ->.
  pose proof (scene_histories asort AS _ _ _ _ _ _ T SC i c N) as HI.
  pose proof (nth_error_In _ _ N) as IN. destruct (RO c IN) as (R1 & R2).
  destruct SC as (SH & TC & ND).
  destruct (history_legs asort AS comps ND _ PO (t_limit t) 0 _ _ HI) as (A & B & C & D & E).
  - split; [exact R1|]. cbn. eauto.
  - exact R2.
  - repeat (split; [assumption|]). intros K U. destruct (E K U) as [[K1 _]|K1]; [lia|]. exact K1.
Qed.
