(** * SessionFacts: sessions *)
From Coq Require Import Reals List Bool ZArith Lia.
Import ListNotations.
From Verif Require Import XR Arr Lin Ops Prim Csg Surf World Tracer Session SpecSession.
Open Scope R_scope.

Lemma upd_length : forall (A : Type) (l : list A) i f, length (list_upd l i f) = length l.
Proof. intros A l. induction l as [|a l IH]; intros [|i] f; cbn; auto. Qed.
Lemma upd_same : forall (A : Type) (l : list A) i f x, nth_error l i = Some x -> nth_error (list_upd l i f) i = Some (f x).
Proof. intros A l. induction l as [|a l IH]; intros [|i] f x H; cbn in *; try discriminate; [injection H as ->; auto|auto]. Qed.
Lemma upd_other : forall (A : Type) (l : list A) i j f, i <> j -> nth_error (list_upd l i f) j = nth_error l j.
Proof. intros A l. induction l as [|a l IH]; intros [|i] [|j] f H; cbn; auto; try congruence. Qed.
Lemma app_old : forall (A : Type) (l : list A) m i x, nth_error l i = Some x -> nth_error (l ++ m) i = Some x.
Proof. intros A l m i x H. rewrite nth_error_app1; auto. apply nth_error_Some. congruence. Qed.
Lemma app_new : forall (A : Type) (l : list A) x, nth_error (l ++ [x]) (length l) = Some x.
Proof. intros. rewrite nth_error_app2, Nat.sub_diag; auto. Qed.

(** ** what any run of a tracer does to the store *)
(** frames are only added *)
Definition grows (m m' : store) : Prop :=
  (exists fs, st_frames m' = st_frames m ++ fs) /\
  length (st_iters m') = length (st_iters m) /\
  (forall i xs, nth_error (st_iters m) i = Some (ListObj xs) -> nth_error (st_iters m') i = Some (ListObj xs)) /\
  (forall i, nth_error (st_iters m) i = Some (Iterator []) -> nth_error (st_iters m') i = Some (Iterator [])).
Lemma grows_refl : forall m, grows m m.
Proof. intro m. split; [exists []; rewrite app_nil_r; auto|auto]. Qed.
Lemma grows_trans : forall a b c, grows a b -> grows b c -> grows a c.
Proof.
  intros a b c ((fs & E) & L & P & N) ((gs & E') & L' & P' & N'). split; [exists (fs ++ gs); rewrite E', E, app_assoc; auto|].
  split; [congruence|auto].
Qed.
Lemma iterate_grows : forall m i xs m', iterate m i = (xs, m') -> grows m m' /\ st_frames m' = st_frames m.
Proof.
  intros m i xs m' H. unfold iterate in H. destruct (nth_error (st_iters m) i) as [[ys|ys]|] eqn:E; injection H as <- <-.
  - split; [apply grows_refl|auto].
  - split; [|auto]. split; [exists []; rewrite app_nil_r; auto|]. cbn [st_iters]. split; [apply upd_length|]. split.
    + intros j zs J. destruct (Nat.eq_dec i j) as [->|Nq]; [congruence|rewrite upd_other; auto].
    + intros j J. destruct (Nat.eq_dec i j) as [->|Nq]; [rewrite (upd_same _ _ _ _ _ E); auto|rewrite upd_other; auto].
  - split; [apply grows_refl|auto].
Qed.
Lemma new_frame_grows : forall f m i m', new_frame f m = (i, m') -> grows m m' /\ i = length (st_frames m) /\ st_frames m' = st_frames m ++ [f] /\ st_iters m' = st_iters m.
Proof.
  intros f m i m' H. unfold new_frame in H. injection H as <- <-. cbn [st_frames st_iters]. split; [|auto].
  split; [exists [f]; auto|]. cbn [st_iters]. auto.
Qed.

(** what a tracer keeps of itself, and that it names an existing frame *)
Definition kept (p p' : ptracer) : Prop :=
  p_sources p' = p_sources p /\ p_comps p' = p_comps p /\ p_n p' = p_n p /\ p_limit p' = p_limit p /\ p_lut p' = p_lut p.
Definition framed (p : ptracer) (m : store) : Prop := (p_frame p < length (st_frames m))%nat.
(** the frame is the old one or a new object *)
Definition moved_on (p p' : ptracer) (m : store) : Prop := p_frame p' = p_frame p \/ (length (st_frames m) <= p_frame p')%nat.
Lemma kept_refl : forall p, kept p p. Proof. intro; repeat split. Qed.
Lemma kept_trans : forall a b c, kept a b -> kept b c -> kept a c.
Proof. intros a b c (A1 & A2 & A3 & A4 & A5) (B1 & B2 & B3 & B4 & B5). repeat split; congruence. Qed.
Lemma grows_length : forall m m', grows m m' -> (length (st_frames m) <= length (st_frames m'))%nat.
Proof. intros m m' ((fs & E) & _). rewrite E, app_length. lia. Qed.

Definition step_ok (p : ptracer) (m : store) (p' : ptracer) (m' : store) : Prop :=
  grows m m' /\ kept p p' /\ framed p' m' /\ moved_on p p' m.
Lemma step_trans : forall p m p1 m1 p2 m2, step_ok p m p1 m1 -> step_ok p1 m1 p2 m2 -> step_ok p m p2 m2.
Proof.
  intros p m p1 m1 p2 m2 (G & K & F & V) (G' & K' & F' & V'). split; [eapply grows_trans; eauto|]. split; [eapply kept_trans; eauto|].
  split; [auto|]. unfold moved_on in *. pose proof (grows_length _ _ G). destruct V' as [V'|V'].
  - destruct V as [V|V]; [left; congruence|right; congruence].
  - right. lia.
Qed.
Definition pres_ok (p : ptracer) (m : store) (r : pres) : Prop :=
  match r with POk p' m' | PRaise _ p' m' => step_ok p m p' m' | _ => True end.

Lemma reset_ok : forall p m p' m', p_reset p m = (p', m') -> step_ok p m p' m' /\ p_frame p' = length (st_frames m) /\
  frame_at m' (p_frame p') = empty_frame /\ st_iters m' = st_iters m /\ st_frames m' = st_frames m ++ [empty_frame].
Proof.
  intros p m p' m' H. unfold p_reset in H. destruct (new_frame empty_frame m) as [f m1] eqn:E. injection H as <- <-.
  destruct (new_frame_grows _ _ _ _ E) as (G & -> & Ef & Ei). split; [|cbn [p_frame]; split; [auto|split; [|auto]]].
  - split; [auto|]. split; [repeat split|]. split; [unfold framed; cbn [p_frame]; rewrite Ef, app_length; cbn; lia|right; cbn [p_frame]; lia].
  - unfold frame_at. rewrite Ef, app_nth2, Nat.sub_diag; auto.
Qed.
Section Run.
  Variable asort : list xr -> list nat.
  Variable h : heap.
  Variable gen : loc -> nat -> list col.
  Lemma initialize_ok : forall p m, pres_ok p m (p_initialize gen p m).
  Proof.
    intros p m. unfold p_initialize. destruct (p_reset p m) as [p1 m1] eqn:E. destruct (reset_ok _ _ _ _ E) as (S & F & _ & _ & Ef).
    destruct (iterate m1 (p_sources p1)) as [ss m2] eqn:I. destruct (iterate_grows _ _ _ _ I) as (G & E2).
    assert (S2 : step_ok p m p1 m2).
    { destruct S as (G1 & K & Fr & V). split; [eapply grows_trans; eauto|]. split; [auto|]. split; [unfold framed in *; rewrite E2; auto|auto]. }
    destruct ss as [|x ss]; cbn [pres_ok]; [exact S2|]. destruct S2 as (G1 & K & Fr & V). split; [auto|]. split; [exact K|]. split; [exact Fr|exact V].
  Qed.
  Lemma propagate_ok : forall p m, framed p m -> pres_ok p m (p_propagate asort h p m).
  Proof.
    intros p m Fr. unfold p_propagate. destruct (iterate m (p_comps p)) as [cs m1] eqn:I. destruct (iterate_grows _ _ _ _ I) as (G & E2).
    destruct (collect (map (shape_of h) cs)); cbn [pres_ok]; (split; [auto|split; [repeat split|split; [unfold framed in *; cbn [p_frame]; rewrite E2; auto|left; auto]]]).
  Qed.
  Lemma interact_ok : forall p m, framed p m -> pres_ok p m (p_interact h p m).
  Proof.
    intros p m Fr. unfold p_interact. assert (S : step_ok p m p m) by (split; [apply grows_refl|split; [apply kept_refl|split; [auto|left; auto]]]).
    destruct (collect (map (entry_of h) (p_lut p))) as [lut|]; [|exact S].
    destruct (interact lut (p_limit p) (p_gen p) (p_rays p) (p_hits p)) as [|rows rays g fin| |]; try exact I; try exact S.
    destruct (new_frame (Frame (f_rows (frame_at m (p_frame p)) ++ rows) None) m) as [f m1] eqn:E.
    destruct (new_frame_grows _ _ _ _ E) as (G & -> & Ef & Ei). cbn [pres_ok]. split; [auto|]. split; [repeat split|].
    split; [unfold framed; cbn [p_frame]; rewrite Ef, app_length; cbn; lia|right; cbn [p_frame]; lia].
  Qed.
  Lemma states_ok : forall fuel p m, framed p m -> pres_ok p m (p_states asort h gen fuel p m).
  Proof.
    induction fuel as [|n IH]; intros p m Fr.
    - cbn [p_states]. destruct (p_state p); cbn [pres_ok]; auto. split; [apply grows_refl|split; [apply kept_refl|split; [auto|left; auto]]].
    - cbn [p_states].
      assert (X : forall r, pres_ok p m r -> pres_ok p m (pbind r (p_states asort h gen n))).
      { intros [p1 m1|e p1 m1| |] H; cbn [pbind pres_ok] in *; auto.
        assert (Fr1 : framed p1 m1) by apply H. specialize (IH p1 m1 Fr1).
        destruct (p_states asort h gen n p1 m1) as [p2 m2|e p2 m2| |]; cbn [pres_ok] in *; auto; eapply step_trans; eauto. }
      destruct (p_state p).
      + split; [apply grows_refl|split; [apply kept_refl|split; [auto|left; auto]]].
      + apply X, initialize_ok.
      + apply X, propagate_ok; auto.
      + apply X, interact_ok; auto.
      + apply X. unfold p_finish. cbn [pres_ok]. split; [apply grows_refl|split; [repeat split|split; [auto|left; auto]]].
  Qed.
  Lemma trace_ok : forall fuel p m, framed p m -> pres_ok p m (p_trace asort h gen fuel p m).
  Proof.
    intros fuel p m Fr. unfold p_trace.
    match goal with |- pres_ok _ _ (p_states _ _ _ _ ?q _) => pose proof (states_ok fuel q m) as H; set (q0 := q) in * end.
    specialize (H Fr). destruct (p_states asort h gen fuel q0 m); cbn [pres_ok] in *; auto.
  Qed.

  (** ** tracing lists is tracing values *)
  Definition like (m : store) (p : ptracer) (xs ys : list loc) (t : tracer) : Prop :=
    nth_error (st_iters m) (p_sources p) = Some (ListObj xs) /\ nth_error (st_iters m) (p_comps p) = Some (ListObj ys) /\
    framed p m /\
    t = Tracer (frame_at m (p_frame p)) (p_state p) (p_gen p) (p_complete p) xs ys (p_n p) (p_limit p) (p_rays p) (p_hits p) (p_lut p).
  Definition alike (i0 : list iterable) (xs ys : list loc) (r : pres) (v : tres) : Prop :=
    match r, v with
    | POk p m, TOk t => like m p xs ys t /\ st_iters m = i0
    | PRaise e p m, TRaise e' t => e = e' /\ like m p xs ys t /\ st_iters m = i0
    | PNan, TNan => True
    | PFuel, TFuel => True
    | _, _ => False
    end.
  Lemma iterate_list : forall m i xs, nth_error (st_iters m) i = Some (ListObj xs) -> iterate m i = (xs, m).
  Proof. intros m i xs H. unfold iterate. rewrite H. auto. Qed.
  Lemma initialize_like : forall m p xs ys t, like m p xs ys t -> alike (st_iters m) xs ys (p_initialize gen p m) (st_initialize gen t).
  Proof.
    intros m p xs ys t (Hs & Hc & Fr & ->). unfold p_initialize. destruct (p_reset p m) as [p1 m1] eqn:E.
    destruct (reset_ok _ _ _ _ E) as ((G & (K1 & K2 & K3 & K4 & K5) & Fr1 & _) & F & Fa & Ei & Ef).
    assert (Hs1 : nth_error (st_iters m1) (p_sources p1) = Some (ListObj xs)) by (rewrite Ei, K1; auto).
    rewrite (iterate_list _ _ _ Hs1). unfold p_reset, new_frame in E. injection E as <- <-. cbn [p_sources p_comps p_n p_limit p_lut p_frame p_gen p_complete p_rays p_hits p_state] in *.
    unfold st_initialize, reset, set_gen, set_state, set_frame, set_complete, set_rays; cbn [t_frame t_state t_gen t_complete t_sources t_comps t_n t_limit t_rays t_hits t_lut].
    destruct xs as [|x xs].
    - cbn [alike]. split; [auto|]. split; [|auto]. split; [auto|]. split; [cbn [p_comps]; rewrite Ei; auto|]. split; [auto|]. cbn [p_frame]. rewrite Fa. reflexivity.
    - cbn [alike]. split; [|auto]. split; [auto|]. split; [cbn [p_comps]; rewrite Ei; auto|]. split; [exact Fr1|]. cbn [p_frame]. rewrite Fa. reflexivity.
  Qed.
  Lemma propagate_like : forall m p xs ys t, like m p xs ys t -> alike (st_iters m) xs ys (p_propagate asort h p m) (st_propagate asort h t).
  Proof.
    intros m p xs ys t (Hs & Hc & Fr & ->). unfold p_propagate. rewrite (iterate_list _ _ _ Hc). unfold st_propagate; cbn [t_comps t_rays].
    destruct (collect (map (shape_of h) ys)) as [comps|]; cbn [alike].
    - split; [|auto]. split; [auto|]. split; [auto|]. split; [auto|reflexivity].
    - split; [auto|]. split; [|auto]. split; [auto|]. split; [auto|]. split; [auto|reflexivity].
  Qed.
  Lemma interact_like : forall m p xs ys t, like m p xs ys t -> alike (st_iters m) xs ys (p_interact h p m) (st_interact h t).
  Proof.
    intros m p xs ys t (Hs & Hc & Fr & ->). unfold p_interact, st_interact; cbn [t_lut t_limit t_gen t_rays t_hits t_frame].
    destruct (collect (map (entry_of h) (p_lut p))) as [lut|].
    2: { cbn [alike]. split; [auto|]. split; [|auto]. split; [auto|]. split; [auto|]. split; [auto|reflexivity]. }
    destruct (interact lut (p_limit p) (p_gen p) (p_rays p) (p_hits p)) as [|rows rays g fin| |]; cbn [alike]; auto.
    - split; [|auto]. split; [auto|]. split; [auto|]. split; [auto|reflexivity].
    - destruct (new_frame (Frame (f_rows (frame_at m (p_frame p)) ++ rows) None) m) as [f m1] eqn:E.
      destruct (new_frame_grows _ _ _ _ E) as (G & -> & Ef & Ei). split; [|auto]. split; [cbn [p_sources]; rewrite Ei; auto|].
      split; [cbn [p_comps]; rewrite Ei; auto|]. split; [unfold framed; cbn [p_frame]; rewrite Ef, app_length; cbn; lia|].
      cbn [p_frame p_state p_gen p_complete p_n p_limit p_rays p_hits p_lut].
      assert (Fa : frame_at m1 (length (st_frames m)) = Frame (f_rows (frame_at m (p_frame p)) ++ rows) None).
      { unfold frame_at. rewrite Ef, app_nth2, Nat.sub_diag; auto. }
      rewrite Fa. reflexivity.
    - split; [auto|]. split; [|auto]. split; [auto|]. split; [auto|]. split; [auto|reflexivity].
  Qed.
  Lemma states_like : forall fuel m p xs ys t, like m p xs ys t -> alike (st_iters m) xs ys (p_states asort h gen fuel p m) (run_states asort h gen fuel t).
  Proof.
    induction fuel as [|n IH]; intros m p xs ys t L; assert (Es : t_state t = p_state p) by (destruct L as (_ & _ & _ & ->); reflexivity).
    - cbn [p_states run_states]. rewrite Es. destruct (p_state p); cbn [alike]; auto.
    - cbn [p_states run_states]. rewrite Es.
      assert (X : forall r v, alike (st_iters m) xs ys r v -> alike (st_iters m) xs ys (pbind r (p_states asort h gen n)) (tbind v (run_states asort h gen n))).
      { intros [p1 m1|e p1 m1| |] [t1|e1 t1| |] H; cbn [alike pbind tbind] in *; try contradiction; auto.
        destruct H as (L1 & E1). rewrite <- E1. apply IH; auto. }
      destruct (p_state p).
      + cbn [alike]. auto.
      + apply X, initialize_like; auto.
      + apply X, propagate_like; auto.
      + apply X, interact_like; auto.
      + apply X. unfold p_finish, st_finish. destruct L as (Hs & Hc & Fr & ->). cbn [alike]. split; [|auto]. split; [auto|]. split; [auto|]. split; [auto|reflexivity].
  Qed.
  Lemma trace_like : forall fuel m p xs ys t, like m p xs ys t -> alike (st_iters m) xs ys (p_trace asort h gen fuel p m) (trace asort h gen fuel t).
  Proof.
    intros fuel m p xs ys t (Hs & Hc & Fr & ->). unfold p_trace, trace. apply states_like. split; [auto|]. split; [auto|]. split; [auto|reflexivity].
  Qed.
End Run.
