(** * FrameFacts: calls that name later objects only leave the earlier ones alone *)
From Coq Require Import Reals List Bool ZArith Lra Lia.
Import ListNotations.
From Verif Require Import XR Arr Lin Prim Csg Surf World SpecWorld WorldFacts SpecApart Components.
Open Scope R_scope.

Definition handler_loc (w : handler) : loc := match w with HMat l | HLeafBox l | HCsgBox l => l end.
(** the objects of the set [Q] refer to one another only *)
Definition own (Q : loc -> Prop) (h : heap) : Prop :=
  forall x o, get h x = Some o -> Q x -> (forall c, In c (children (o_kind o)) -> Q c) /\ (forall w, In w (o_watch o) -> Q (handler_loc w)).
Definition kept (Q : loc -> Prop) (h h' : heap) : Prop := (length (h_objs h) <= length (h_objs h'))%nat /\ forall x, ~ Q x -> get h' x = get h x.
Definition stays (n : loc -> Prop) (h : heap) (r : res) : Prop := forall h', res_heap r = Some h' -> own n h' /\ kept n h h'.
Lemma kept_refl : forall n h, kept n h h. Proof. intros n h. split; [lia|reflexivity]. Qed.
Lemma kept_trans : forall n a b c, kept n a b -> kept n b c -> kept n a c.
Proof. intros n a b c (LA & A) (LB & B). split; [lia|]. intros x L. rewrite (B x L). apply A. exact L. Qed.
Lemma stays_ok : forall n h, own n h -> stays n h (Ok h).
Proof. intros n h O h' E. injection E as <-. split; [exact O|apply kept_refl]. Qed.
Lemma stays_raise : forall n h e, own n h -> stays n h (Raise e h).
Proof. intros n h e O h' E. injection E as <-. split; [exact O|apply kept_refl]. Qed.
Lemma stays_bind : forall n h r k, stays n h r -> (forall h1, own n h1 -> stays n h1 (k h1)) -> stays n h (bind r k).
Proof.
  intros n h r k S K h' E. destruct (res_heap_bind _ _ _ E) as [(h1 & -> & E1)|(e & ->)].
  - destruct (S h1 eq_refl) as (O & Q). destruct (K h1 O h' E1) as (O' & Q'). split; [exact O'|eapply kept_trans; eauto].
  - exact (S h' eq_refl).
Qed.
Lemma stays_from : forall n h h1 r, kept n h h1 -> stays n h1 r -> stays n h r.
Proof. intros n h h1 r Q S h' E. destruct (S h' E) as (O & Q'). split; [exact O|eapply kept_trans; eauto]. Qed.
Lemma upd_length : forall h l f, length (h_objs (upd h l f)) = length (h_objs h).
Proof.
  intros h l f. unfold upd; cbn [h_objs]. generalize (h_objs h). intro os. revert l. induction os as [|o os IH]; intros [|l]; cbn; auto.
Qed.
Lemma kept_upd : forall (n : loc -> Prop) h l f, n l -> kept n h (upd h l f).
Proof. intros n h l f L. split; [rewrite upd_length; lia|]. intros x X. apply get_upd_other. intros ->. contradiction. Qed.
Lemma own_upd : forall (n : loc -> Prop) h l f, own n h ->
  (forall o, get h l = Some o -> n l -> (forall c, In c (children (o_kind (f o))) -> n c) /\ (forall w, In w (o_watch (f o)) -> n (handler_loc w))) ->
  own n (upd h l f).
Proof.
  intros n h l f O H x o G X. destruct (Nat.eq_dec x l) as [->|N].
  - destruct (get h l) as [o0|] eqn:G0.
    + rewrite (get_upd_same _ _ f _ G0) in G. injection G as <-. exact (H o0 eq_refl X).
    + exfalso. apply get_lt in G. rewrite upd_length in G. destruct (get_some h l G) as (o1 & G1). congruence.
  - rewrite get_upd_other in G by exact N. exact (O x o G X).
Qed.
Lemma own_plain : forall (n : loc -> Prop) h l f, own n h -> (forall o, o_kind (f o) = o_kind o /\ o_watch (f o) = o_watch o) -> own n (upd h l f).
Proof. intros n h l f O H. apply own_upd; [exact O|]. intros o G X. destruct (H o) as (-> & ->). exact (O l o G X). Qed.
Lemma stays_upd : forall (n : loc -> Prop) h l f, own n h -> n l -> (forall o, o_kind (f o) = o_kind o /\ o_watch (f o) = o_watch o) -> stays n h (Ok (upd h l f)).
Proof. intros n h l f O L H h' E. injection E as <-. split; [apply own_plain; auto|apply kept_upd; exact L]. Qed.

Section Frame.
  Variable asort : list xr -> list nat.
  Variable n : loc -> Prop.
  Lemma handler_stays : forall w h, own n h -> n (handler_loc w) -> stays n h (run_handler asort w h).
  Proof.
    intros [l|l|l] h O L; cbn [handler_loc] in L; cbn [run_handler]; destruct (get h l) as [o|]; try (apply stays_raise; exact O).
    - set (h1 := upd h l _). assert (O1 : own n h1) by (apply own_plain; [exact O|split; reflexivity]). assert (K1 : kept n h h1) by (apply kept_upd; exact L).
      destruct (rltb _ _); [apply (stays_from _ _ h1); [exact K1|apply stays_raise; exact O1]|].
      set (h2 := upd h1 l _). assert (O2 : own n h2) by (apply own_plain; [exact O1|split; reflexivity]). assert (K2 : kept n h h2) by (eapply kept_trans; [exact K1|apply kept_upd; exact L]).
      destruct (minv _); [|apply (stays_from _ _ h2); [exact K2|apply stays_raise; exact O2]].
      apply (stays_from _ _ h2); [exact K2|]. apply stays_upd; [exact O2|exact L|split; reflexivity].
    - destruct (o_kind o); try (apply stays_raise; exact O). apply stays_upd; [exact O|exact L|split; reflexivity].
    - destruct (o_kind o) as [|p m|op a b|ms]; try (apply stays_raise; exact O). destruct (box_of h a), (box_of h b); try (apply stays_raise; exact O). apply stays_upd; [exact O|exact L|split; reflexivity].
  Qed.
  Lemma all_stays : forall ws h, own n h -> (forall w, In w ws -> n (handler_loc w)) -> stays n h (run_all asort ws h).
  Proof.
    induction ws as [|w ws IH]; intros h O H; [apply stays_ok; exact O|]. cbn [run_all]. apply stays_bind; [apply handler_stays; [exact O|apply H; left; reflexivity]|].
    intros h1 O1. apply IH; [exact O1|]. intros w' I. apply H. right. exact I.
  Qed.
  Lemma own_stays : forall l t h, own n h -> n l -> stays n h (append_own asort l t h).
  Proof.
    intros l t h O L. unfold append_own. destruct (get h l) as [o|] eqn:G; [|apply stays_raise; exact O].
    set (h1 := upd h l _). assert (O1 : own n h1) by (apply own_plain; [exact O|split; reflexivity]).
    apply (stays_from _ _ h1); [apply kept_upd; exact L|]. apply all_stays; [exact O1|]. exact (proj2 (O l o G L)).
  Qed.
  Lemma each_stays : forall (f : loc -> heap -> res) ls h, own n h -> (forall l, In l ls -> n l) ->
    (forall l h, own n h -> n l -> stays n h (f l h)) -> stays n h (each f ls h).
  Proof.
    intros f. induction ls as [|l ls IH]; intros h O H F; [apply stays_ok; exact O|]. cbn [each]. apply stays_bind; [apply F; [exact O|apply H; left; reflexivity]|].
    intros h1 O1. apply IH; auto. intros l' I. apply H. right. exact I.
  Qed.
  Lemma transform_stays : forall k l t h, own n h -> n l -> stays n h (transform asort k l t h).
  Proof.
    induction k as [|k IH]; intros l t h O L; cbn [transform]; [intros h' E; discriminate|].
    destruct (get h l) as [o|] eqn:G; [|apply stays_raise; exact O]. apply stays_bind; [apply own_stays; auto|].
    intros h1 O1. apply each_stays; [exact O1|exact (proj1 (O l o G L))|]. intros c h2 O2 C. apply IH; auto.
  Qed.
  Lemma normals_stay : forall k v l h, own n h -> n l -> stays n h (set_normals k v l h).
  Proof.
    induction k as [|k IH]; intros v l h O L; cbn [set_normals]; [intros h' E; discriminate|].
    destruct (get h l) as [o|] eqn:G; [|apply stays_raise; exact O]. destruct (o_kind o) as [|p m|op a b|ms] eqn:K; try (apply stays_raise; exact O).
    - apply stays_upd; [exact O|exact L|split; reflexivity].
    - pose proof (proj1 (O l o G L)) as C. rewrite K in C. apply stays_bind; [apply IH; [exact O|apply C; left; reflexivity]|].
      intros h1 O1. apply IH; [exact O1|apply C; right; left; reflexivity].
  Qed.
  Lemma alloc_kept : forall k h, n (fresh h) -> kept n h (alloc k h).
  Proof.
    intros k h F. split; [unfold alloc; cbn [h_objs]; rewrite app_length; lia|]. intros x X. destruct (Nat.lt_trichotomy x (fresh h)) as [L|[->|L]].
    - apply get_alloc_old. exact L.
    - contradiction.
    - unfold get, fresh in *. transitivity (@None obj); [|symmetry]; apply nth_error_None; unfold alloc; cbn [h_objs]; rewrite ?app_length; cbn; lia.
  Qed.
  Lemma alloc_stays : forall k h, own n h -> n (fresh h) -> (forall c, In c (children k) -> n c) -> own n (alloc k h) /\ kept n h (alloc k h).
  Proof.
    intros k h O F C. split; [|apply alloc_kept; exact F].
    intros x o G X. destruct (get_alloc _ _ _ _ G) as [G'|(-> & ->)]; [exact (O x o G' X)|]. cbn [o_kind o_watch]. split; [exact C|].
    intros w [<-|[]]. exact F.
  Qed.
  Lemma attach_stays : forall c p h, own n h -> n c -> n p -> stays n h (attach_to c p h).
  Proof.
    intros c p h O C P. unfold attach_to. destruct (get h c) as [oc|] eqn:GC; [|apply stays_raise; exact O]. destruct (get h p) as [op|] eqn:GP; [|apply stays_raise; exact O].
    assert (S : stays n h (Ok (upd h c (with_watch (o_watch oc ++ o_watch op))))).
    { intros h' E. injection E as <-. split; [|apply kept_upd; exact C]. apply own_upd; [exact O|]. intros o G X. cbn [o_kind o_watch with_watch].
      split; [exact (proj1 (O c o G X))|]. intros w I. apply in_app_or in I. destruct I as [I|I]; [exact (proj2 (O c oc GC C) w I)|exact (proj2 (O p op GP P) w I)]. }
    destruct (o_kind oc); auto; apply stays_raise; exact O.
  Qed.

  Lemma alloc_length : forall k h, length (h_objs (alloc k h)) = S (length (h_objs h)).
  Proof. intros k h. unfold alloc; cbn [h_objs]. rewrite app_length. cbn. lia. Qed.
  Lemma csg_tail : forall op a b l h, own n h -> n a -> n b -> n l ->
    stays n h (bind (attach_to a l h) (fun h1 => bind (attach_to b l h1) (fun h2 =>
      bind match op with DIFFERENCE => set_normals (depth h2) (-1) b h2 | _ => Ok h2 end (fun h3 => run_handler asort (HCsgBox l) h3)))).
  Proof.
    intros op a b l h O A B F. apply stays_bind; [apply attach_stays; auto|]. intros h3 O3. apply stays_bind; [apply attach_stays; auto|]. intros h4 O4.
    apply stays_bind; [destruct op; try (apply stays_ok; exact O4); apply normals_stay; auto|]. intros h5 O5. apply handler_stays; auto.
  Qed.
End Frame.
Lemma own_all : forall h, own (fun _ => True) h.
Proof. intros h x o _ _. split; auto. Qed.
Section Calls.
  Variable asort : list xr -> list nat.
  Variable n : loc -> Prop.
  (** what the call is given and what it makes belongs to the set *)
  Definition fine (h : heap) (c : call) : Prop := forall h', res_heap (run_call asort c h) = Some h' -> forall l, concerns h c h' l -> n l.
  Lemma call_stays : forall c h, own n h -> fine h c -> stays n h (run_call asort c h).
  Proof.
    intros c h O FN h' E.
    assert (N : forall l, In l (names c) -> n l) by (intros l I; apply (FN h' E); left; exact I).
    assert (MK : (length (h_objs h) < length (h_objs h'))%nat -> n (fresh h)) by (intro L; apply (FN h' E); right; unfold fresh; lia).
    clear FN. revert h' E MK. change (forall h', res_heap (run_call asort c h) = Some h' -> ((length (h_objs h) < length (h_objs h'))%nat -> n (fresh h)) -> own n h' /\ kept n h h').
    assert (SIMPLE : stays n h (run_call asort c h) -> forall h', res_heap (run_call asort c h) = Some h' -> ((length (h_objs h) < length (h_objs h'))%nat -> n (fresh h)) -> own n h' /\ kept n h h') by (intros S h' E _; exact (S h' E)).
    destruct c as [|p m|ms|g ms|op a b|l o|l|l]; cbn [run_call names] in *.
    - intros h' E MK. injection E as <-. apply alloc_stays; [exact O|apply MK; rewrite alloc_length; lia|intros c []].
    - unfold new_surface in *. destruct (prim_init p).
      + intros h' E MK. injection E as <-. assert (F : n (fresh h)) by (apply MK; rewrite !upd_length, alloc_length; lia).
        destruct (alloc_stays n (KSurf p m) h O F) as (O1 & K1); [intros c []|]. set (h1 := alloc (KSurf p m) h) in *.
        set (h2 := upd h1 (fresh h) _). assert (O2 : own n h2) by (apply own_plain; [exact O1|split; reflexivity]).
        split; [|eapply kept_trans; [exact K1|eapply kept_trans; [apply kept_upd; exact F|apply kept_upd; exact F]]].
        apply own_upd; [exact O2|]. intros o G X. cbn [o_kind o_watch with_watch]. destruct (O2 _ o G X) as (C & W). split; [exact C|].
        intros w I. apply in_app_or in I. destruct I as [I|[<-|[]]]; [exact (W w I)|exact F].
      + intros h' E _. injection E as <-. split; [exact O|split; [cbn [h_objs]; lia|reflexivity]].
    - unfold new_group in *. destruct (valid_locs h ms); [|apply SIMPLE, stays_raise; exact O]. intros h' E MK. injection E as <-. apply alloc_stays; [exact O|apply MK; rewrite alloc_length; lia|exact N].
    - apply SIMPLE. unfold group_set. destruct (get h g) as [o|] eqn:G; [|apply stays_raise; exact O]. destruct (o_kind o); try (apply stays_raise; exact O).
      destruct (valid_locs h ms); [|apply stays_raise; exact O]. intros h' E. injection E as <-. split; [|apply kept_upd; apply N; left; reflexivity].
      apply own_upd; [exact O|]. intros o' G' X. cbn [o_kind o_watch with_members children]. split; [intros c I; apply N; right; exact I|exact (proj2 (O g o' G' X))].
    - assert (A : n a) by (apply N; left; reflexivity). assert (B : n b) by (apply N; right; left; reflexivity).
      unfold new_csg in *. destruct (valid_locs h [a; b]); cbn [negb] in *; [|apply SIMPLE, stays_raise; exact O]. clear SIMPLE.
      set (h2 := upd (alloc (KCsg op a b) h) (fresh h) _). intros h' E MK.
      assert (F : n (fresh h)).
      { apply MK. destruct (csg_tail asort (fun _ => True) op a b (fresh h) h2 (own_all h2) Logic.I Logic.I Logic.I h' E) as (_ & L & _). unfold h2 in L. rewrite upd_length, alloc_length in L. lia. }
      destruct (alloc_stays n (KCsg op a b) h O F) as (O1 & K1); [exact N|].
      assert (O2 : own n h2).
      { apply own_upd; [exact O1|]. intros o G X. cbn [o_kind o_watch with_watch]. destruct (O1 _ o G X) as (C & W). split; [exact C|].
        intros w I. apply in_app_or in I. destruct I as [I|[<-|[]]]; [exact (W w I)|exact F]. }
      destruct (csg_tail asort n op a b (fresh h) h2 O2 A B F h' E) as (O3 & K3). split; [exact O3|]. eapply kept_trans; [exact K1|]. eapply kept_trans; [apply kept_upd; exact F|exact K3].
    - apply SIMPLE. unfold apply_motion. destruct (motion_matrix o); [|apply stays_raise; exact O]. apply transform_stays; [exact O|apply N; left; reflexivity].
    - apply SIMPLE, normals_stay; [exact O|apply N; left; reflexivity].
    - apply SIMPLE, normals_stay; [exact O|apply N; left; reflexivity].
  Qed.
End Calls.
Lemma left_heap : forall r h', left_by r h' -> res_heap r = Some h'.
Proof. intros r h' [->|(e & ->)]; reflexivity. Qed.
Lemma call_grows : forall asort c h h', res_heap (run_call asort c h) = Some h' -> (length (h_objs h) <= length (h_objs h'))%nat.
Proof.
  intros asort c h h' E. apply (call_stays asort (fun _ => True) c h) in E; [apply E|apply own_all|]. intros h1 _ l _. exact Logic.I.
Qed.
