(** * WorldFacts: effect of the heap operations *)
From Coq Require Import Reals List Bool ZArith Lra Lia.
Import ListNotations.
From Verif Require Import XR XRFacts Arr Lin LinFacts Prim Csg Surf World SpecWorld.
Open Scope R_scope.

(** ** get / upd *)
Lemma list_upd_length : forall A (f : A -> A) l i, length (list_upd l i f) = length l.
Proof. induction l; destruct i; simpl; auto. Qed.
Lemma nth_list_upd : forall A (f : A -> A) l i j,
  nth_error (list_upd l i f) j = if Nat.eqb j i then option_map f (nth_error l j) else nth_error l j.
Proof.
  induction l; intros [|i] [|j]; simpl; auto.
  - destruct (Nat.eqb j i); auto.
Qed.
Lemma get_upd : forall h l f x,
  get (upd h l f) x = if Nat.eqb x l then option_map f (get h x) else get h x.
Proof. intros. unfold get, upd; simpl. apply nth_list_upd. Qed.
Lemma get_upd_same : forall h l f o, get h l = Some o -> get (upd h l f) l = Some (f o).
Proof. intros h l f o H. rewrite get_upd, Nat.eqb_refl, H. auto. Qed.
Lemma get_upd_other : forall h l f x, x <> l -> get (upd h l f) x = get h x.
Proof. intros h l f x H. rewrite get_upd. apply Nat.eqb_neq in H. rewrite H. auto. Qed.
Lemma len_upd : forall h l f, length (h_objs (upd h l f)) = length (h_objs h).
Proof. intros. unfold upd; simpl. apply list_upd_length. Qed.
Lemma next_upd : forall h l f, h_next (upd h l f) = h_next h.
Proof. reflexivity. Qed.
Lemma get_lt : forall h x o, get h x = Some o -> (x < length (h_objs h))%nat.
Proof. intros h x o H. apply nth_error_Some. unfold get in H. congruence. Qed.
Lemma get_some : forall h x, (x < length (h_objs h))%nat -> exists o, get h x = Some o.
Proof. intros h x H. unfold get. destruct (nth_error (h_objs h) x) eqn:E; eauto. apply nth_error_None in E. lia. Qed.

(** ** relations between heaps, object by object *)
Definition hrel (P : loc -> obj -> obj -> Prop) (h h' : heap) : Prop :=
  h_next h' = h_next h /\ length (h_objs h') = length (h_objs h) /\
  forall x o, get h x = Some o -> exists o', get h' x = Some o' /\ P x o o'.

Lemma hrel_refl : forall (P : loc -> obj -> obj -> Prop) h, (forall x o, get h x = Some o -> P x o o) -> hrel P h h.
Proof. intros P h H. repeat split; eauto. Qed.
Lemma hrel_trans : forall (P Q S : loc -> obj -> obj -> Prop) h1 h2 h3, (forall x a b c, P x a b -> Q x b c -> S x a c) ->
  hrel P h1 h2 -> hrel Q h2 h3 -> hrel S h1 h3.
Proof.
  intros P Q S h1 h2 h3 H (A & B & C) (D & E & F). split; [congruence|]. split; [congruence|].
  intros x o G. destruct (C x o G) as (o2 & G2 & K). destruct (F x o2 G2) as (o3 & G3 & K3). eauto.
Qed.
Lemma hrel_mono : forall (P Q : loc -> obj -> obj -> Prop) h h', (forall x a b, get h x = Some a -> P x a b -> Q x a b) -> hrel P h h' -> hrel Q h h'.
Proof.
  intros P Q h h' H (A & B & C). repeat split; auto. intros x o G. destruct (C x o G) as (o2 & G2 & K). eauto.
Qed.
Lemma hrel_get_back : forall P h h' x o', hrel P h h' -> get h' x = Some o' -> exists o, get h x = Some o /\ P x o o'.
Proof.
  intros P h h' x o' (A & B & C) G. pose proof (get_lt _ _ _ G) as L. rewrite B in L.
  destruct (get_some _ _ L) as [o Go]. destruct (C x o Go) as (o2 & G2 & K). exists o. split; auto. congruence.
Qed.
Lemma hrel_upd : forall (P : loc -> obj -> obj -> Prop) h l f, (forall x o, x <> l -> P x o o) ->
  (forall o, get h l = Some o -> P l o (f o)) -> hrel P h (upd h l f).
Proof.
  intros P h l f H K. split; [auto|]. split; [apply len_upd|]. intros x o G.
  destruct (Nat.eq_dec x l) as [->|N].
  - exists (f o). split; auto. apply get_upd_same; auto.
  - exists o. rewrite get_upd_other by auto. auto.
Qed.

(** What no transform changes *)
Definition skel (o o' : obj) : Prop :=
  o_id o' = o_id o /\ o_kind o' = o_kind o /\ o_watch o' = o_watch o /\ o_nscale o' = o_nscale o.
Lemma skel_refl : forall o, skel o o.
Proof. repeat split. Qed.
Lemma skel_trans : forall a b c, skel a b -> skel b c -> skel a c.
Proof. unfold skel. intros a b c (A & B & C & D) (E & F & G & H). repeat split; congruence. Qed.
Definition sks := hrel (fun _ => skel).
Lemma sks_refl : forall h, sks h h.
Proof. intro h. apply hrel_refl. intros; apply skel_refl. Qed.
Lemma sks_trans : forall a b c, sks a b -> sks b c -> sks a c.
Proof. intros a b c. apply hrel_trans. intros x; apply skel_trans. Qed.

(** ** handlers *)
Definition matc (o : obj) : Prop :=
  is_inverse (o_world o) (o_obj o) /\ o_origin o = mapply (o_world o) obj_origin /\
  dir_tolerance <= vnorm (mapply (o_world o) obj_direction) /\
  o_dir o = vscale (/ vnorm (mapply (o_world o) obj_direction)) (mapply (o_world o) obj_direction).
Definition boxc (o : obj) : Prop :=
  match o_kind o with KSurf p _ => o_box o = surf_box p (o_world o) | _ => True end.
Definition mats_eq (o o' : obj) : Prop :=
  o_obj o' = o_obj o /\ o_origin o' = o_origin o /\ o_dir o' = o_dir o.

(** what one handler does to one object *)
Definition hstep (asort : list xr -> list nat) (h : heap) (w : handler) (x : loc) (o o' : obj) : Prop :=
  skel o o' /\ o_world o' = o_world o /\
  (mats_eq o o' \/ w = HMat x) /\ (w = HMat x -> matc o') /\
  (o_box o' = o_box o \/ w = HLeafBox x \/ w = HCsgBox x) /\
  (w = HLeafBox x -> exists p m, o_kind o = KSurf p m /\ o_box o' = surf_box p (o_world o)) /\
  (w = HCsgBox x -> exists op l r a b, o_kind o = KCsg op l r /\
     box_of h l = Some a /\ box_of h r = Some b /\ o_box o' = csg_box asort op a b).

Ltac hstep_frame := unfold hstep, mats_eq; repeat split; auto; try (intros; congruence).

Lemma hstep_id : forall asort h w x o, w <> HMat x -> w <> HLeafBox x -> w <> HCsgBox x -> hstep asort h w x o o.
Proof. intros. hstep_frame. Qed.

Lemma run_handler_step : forall asort w h h', run_handler asort w h = Ok h' -> hrel (hstep asort h w) h h'.
Proof.
  intros asort [l|l|l] h h' H; simpl in H; destruct (get h l) as [o|] eqn:G; try discriminate.
  - destruct (rltb _ _) eqn:T; [discriminate|]. destruct (minv (o_world o)) as [i|] eqn:I; [|discriminate].
    injection H as <-. apply rltb_false in T. apply minv_is_inverse in I.
    split; [reflexivity|]. split; [rewrite !len_upd; reflexivity|]. intros x o0 G0.
    destruct (Nat.eq_dec x l) as [->|N].
    + rewrite G in G0. injection G0 as <-.
      exists (with_obj i (with_dir (vscale (/ vnorm (mapply (o_world o) obj_direction)) (mapply (o_world o) obj_direction))
        (with_origin (mapply (o_world o) obj_origin) o))).
      split; [apply get_upd_same, get_upd_same, get_upd_same; auto|].
      unfold hstep. split; [repeat split|]. split; [reflexivity|]. split; [auto|].
      split; [|split; [auto|split; intros; discriminate]].
      intros _. unfold matc; cbn [with_obj with_dir with_origin o_world o_obj o_origin o_dir]. split; [exact I|]. split; [reflexivity|].
      split; [exact T|reflexivity].
    + exists o0. rewrite !get_upd_other by auto. split; auto. apply hstep_id; congruence.
  - destruct (o_kind o) as [|p m|op a b|ms] eqn:K; try discriminate. injection H as <-.
    apply hrel_upd; [intros; apply hstep_id; congruence|]. intros o0 G0. rewrite G in G0. injection G0 as <-.
    unfold hstep. split; [repeat split|]. split; [reflexivity|]. split; [left; repeat split|]. split; [congruence|]. split; [auto|].
    split; [|congruence]. intros _. exists p, m. auto.
  - destruct (o_kind o) as [|p m|op a b|ms] eqn:K; try discriminate.
    destruct (box_of h a) as [ba|] eqn:Ba; [|discriminate]. destruct (box_of h b) as [bb|] eqn:Bb; [|discriminate].
    injection H as <-.
    apply hrel_upd; [intros; apply hstep_id; congruence|]. intros o0 G0. rewrite G in G0. injection G0 as <-.
    unfold hstep. split; [repeat split|]. split; [reflexivity|]. split; [left; repeat split|]. split; [congruence|]. split; [auto|].
    split; [congruence|]. intros _. exists op, a, b, ba, bb. auto.
Qed.

(** run_all *)
Definition astep (ws : list handler) (x : loc) (o o' : obj) : Prop :=
  skel o o' /\ o_world o' = o_world o /\
  (mats_eq o o' \/ In (HMat x) ws /\ matc o') /\ (In (HMat x) ws -> matc o') /\
  (o_box o' = o_box o \/ In (HLeafBox x) ws \/ In (HCsgBox x) ws) /\
  (boxc o -> boxc o') /\ (In (HLeafBox x) ws -> boxc o').

Lemma matc_eq : forall o o', mats_eq o o' -> o_world o' = o_world o -> matc o -> matc o'.
Proof. unfold matc. intros o o' (A & B & C) D. rewrite A, B, C, D. auto. Qed.

Lemma run_all_step : forall asort ws h h', run_all asort ws h = Ok h' -> hrel (astep ws) h h'.
Proof.
  intros asort ws. induction ws as [|w ws IH]; intros h h' H; simpl in H.
  - injection H as <-. apply hrel_refl. intros x o _. unfold astep, mats_eq. simpl. repeat split; auto; tauto.
  - destruct (run_handler asort w h) as [h1|e h1|] eqn:R; try discriminate. simpl in H.
    apply run_handler_step in R. specialize (IH _ _ H).
    refine (hrel_trans _ _ _ _ _ _ _ R IH). intros x a b c (A1 & A2 & A3 & A4 & A5 & A6 & A7) (B1 & B2 & B3 & B4 & B5 & B6 & B7).
    assert (BOX : boxc a -> boxc b).
    { unfold boxc. destruct A1 as (K1 & K2 & K3 & K4). rewrite K2, A2. destruct A5 as [->|[->| ->]]; auto.
      - destruct (A6 eq_refl) as (p & m & Kd & ->). rewrite Kd. auto.
      - destruct (A7 eq_refl) as (op & l & r & ba & bb & Kd & _). rewrite Kd. auto. }
    unfold astep. split; [exact (skel_trans _ _ _ A1 B1)|]. split; [congruence|]. split; [|split; [|split; [|split]]].
    + destruct B3 as [B3|[B3 B3']].
      * destruct A3 as [A3|A3].
        -- left. destruct A3 as (? & ? & ?), B3 as (? & ? & ?). repeat split; congruence.
        -- right. split; [left; auto|]. apply (matc_eq _ _ B3); auto.
      * right. split; [right; auto|auto].
    + intros [E|E]; [|auto]. destruct B3 as [B3|[B3 B3']]; auto. apply (matc_eq _ _ B3); auto.
    + simpl. destruct B5 as [B5|[B5|B5]]; auto. destruct A5 as [A5|[A5|A5]]; auto. left; congruence.
    + auto.
    + intros [E|E]; auto. apply B6. destruct (A6 E) as (p & m & Kd & Eb). unfold boxc.
      destruct A1 as (_ & K2 & _). rewrite K2, A2, Kd. auto.
Qed.

(** even when a handler raises *)
Definition res_heap (r : res) : option heap :=
  match r with Ok h | Raise _ h => Some h | Diverge => None end.
Definition wsk := hrel (fun _ o o' => skel o o' /\ o_world o' = o_world o).
Lemma wsk_refl : forall h, wsk h h.
Proof. intro h. apply hrel_refl. intros; split; auto using skel_refl. Qed.
Lemma wsk_trans : forall a b c, wsk a b -> wsk b c -> wsk a c.
Proof. intros a b c. apply hrel_trans. intros x o1 o2 o3 [A B] [C D]. split; [eapply skel_trans; eauto|congruence]. Qed.
Lemma wsk_upd : forall h l f, (forall o, skel o (f o) /\ o_world (f o) = o_world o) -> wsk h (upd h l f).
Proof. intros h l f H. apply hrel_upd; auto. intros; split; auto using skel_refl. Qed.
Lemma wsk_sks : forall a b, wsk a b -> sks a b.
Proof. intros a b. apply hrel_mono. tauto. Qed.

Lemma run_handler_wsk : forall asort w h h', res_heap (run_handler asort w h) = Some h' -> wsk h h'.
Proof.
  intros asort w h h' H. destruct (run_handler asort w h) as [h1|e h1|] eqn:E; simpl in H; try discriminate; injection H as <-.
  - apply run_handler_step in E. revert E. apply hrel_mono. unfold hstep. tauto.
  - destruct w as [l|l|l]; simpl in E; destruct (get h l) as [o|] eqn:G; try (injection E as _ <-; apply wsk_refl).
    + destruct (rltb _ _); [injection E as _ <-; apply wsk_upd; repeat split|].
      destruct (minv (o_world o)); [discriminate|]. injection E as _ <-.
      eapply wsk_trans; apply wsk_upd; repeat split.
    + destruct (o_kind o); try discriminate; injection E as _ <-; apply wsk_refl.
    + destruct (o_kind o); try (injection E as _ <-; apply wsk_refl).
      destruct (box_of h l0); [destruct (box_of h r); [discriminate|]|]; injection E as _ <-; apply wsk_refl.
Qed.
Lemma res_heap_bind : forall r k h', res_heap (bind r k) = Some h' ->
  (exists h, r = Ok h /\ res_heap (k h) = Some h') \/ (exists e, r = Raise e h').
Proof. intros [h|e h|] k h' H; simpl in H; try discriminate; [left; eauto|right; injection H as <-; eauto]. Qed.
Lemma run_all_wsk : forall asort ws h h', res_heap (run_all asort ws h) = Some h' -> wsk h h'.
Proof.
  intros asort ws. induction ws as [|w ws IH]; intros h h' H.
  - injection H as <-. apply wsk_refl.
  - simpl in H. destruct (res_heap_bind _ _ _ H) as [(h1 & E & K)|(e & E)].
    + eapply wsk_trans; [apply (run_handler_wsk asort w); rewrite E; reflexivity|auto].
    + apply (run_handler_wsk asort w). rewrite E. auto.
Qed.
Lemma append_own_sks : forall asort l t h h', res_heap (append_own asort l t h) = Some h' -> sks h h'.
Proof.
  intros asort l t h h' H. unfold append_own in H. destruct (get h l) as [o|] eqn:G; [|injection H as <-; apply sks_refl].
  apply run_all_wsk, wsk_sks in H. eapply sks_trans; [|exact H]. apply hrel_upd; intros; [apply skel_refl|repeat split].
Qed.
Lemma each_sks : forall f ls h h', (forall l h h', In l ls -> res_heap (f l h) = Some h' -> sks h h') ->
  res_heap (each f ls h) = Some h' -> sks h h'.
Proof.
  intros f ls. induction ls as [|l ls IH]; intros h h' F H.
  - injection H as <-. apply sks_refl.
  - simpl in H. destruct (res_heap_bind _ _ _ H) as [(h1 & E & K)|(e & E)].
    + eapply sks_trans; [apply (F l); [left; auto|rewrite E; reflexivity]|]. apply IH; auto. intros; eapply F; eauto. right; auto.
    + apply (F l); [left; auto|rewrite E; auto].
Qed.
Lemma transform_sks : forall asort n l t h h', res_heap (transform asort n l t h) = Some h' -> sks h h'.
Proof.
  intros asort n. induction n as [|n IH]; intros l t h h' H; [discriminate|]. simpl in H.
  destruct (get h l) as [o|] eqn:G; [|injection H as <-; apply sks_refl].
  destruct (res_heap_bind _ _ _ H) as [(h1 & E & K)|(e & E)].
  - eapply sks_trans; [apply (append_own_sks asort l t); rewrite E; reflexivity|].
    eapply each_sks; [|exact K]. intros; eapply IH; eauto.
  - apply (append_own_sks asort l t). rewrite E; auto.
Qed.

(** ** world matrices after a transform *)
Lemma sks_kind : forall h h' x, sks h h' -> option_map o_kind (get h' x) = option_map o_kind (get h x).
Proof.
  intros h h' x S. destruct (get h x) as [o|] eqn:G.
  - destruct S as (_ & _ & C). destruct (C _ _ G) as (o' & G' & (_ & K & _)). rewrite G'. simpl. congruence.
  - destruct (get h' x) as [o'|] eqn:G'; auto. destruct (hrel_get_back _ _ _ _ _ S G') as (o & G2 & _). congruence.
Qed.
Lemma parts_upto_sks : forall n h h' l, sks h h' -> parts_upto n h' l = parts_upto n h l.
Proof.
  induction n as [|n IH]; intros h h' l S; auto. simpl. f_equal.
  pose proof (sks_kind h h' l S) as K. destruct (get h l) as [o|], (get h' l) as [o'|]; simpl in K; try discriminate; auto.
  injection K as ->. induction (children (o_kind o)) as [|c cs IHc]; auto. simpl. rewrite (IH h h' c S), IHc. auto.
Qed.
Lemma depth_sks : forall h h', sks h h' -> depth h' = depth h.
Proof. intros h h' (_ & L & _). unfold depth. auto. Qed.
Lemma parts_sks : forall h h' l, sks h h' -> parts h' l = parts h l.
Proof. intros. unfold parts. rewrite (depth_sks h h') by auto. apply parts_upto_sks; auto. Qed.

Lemma append_own_world : forall asort l t h h', append_own asort l t h = Ok h' ->
  hrel (fun x o o' => skel o o' /\ o_world o' = if Nat.eqb x l then mmul t (o_world o) else o_world o) h h'.
Proof.
  intros asort l t h h' H. unfold append_own in H. destruct (get h l) as [o|] eqn:G; [|discriminate].
  apply run_all_step in H.
  eapply (hrel_trans (fun x o o' => skel o o' /\ o_world o' = if Nat.eqb x l then mmul t (o_world o) else o_world o)); [|apply hrel_upd|exact H].
  - cbv beta. intros x a b c [A B] (C & D & _). split; [eapply skel_trans; eauto|]. rewrite D. auto.
  - intros x o0 N. apply Nat.eqb_neq in N. rewrite N. auto using skel_refl.
  - intros o0 G0. rewrite Nat.eqb_refl. rewrite G in G0. injection G0 as <-. repeat split.
Qed.

Lemma power_plus : forall a b m w, mmul (power a m) (mmul (power b m) w) = mmul (power (a + b) m) w.
Proof.
  induction a as [|a IH]; intros b m w; simpl; [apply mmul_mid_l|].
  rewrite mmul_assoc, IH, mmul_assoc. auto.
Qed.
Definition wpow (t : mat) (f : loc -> nat) (x : loc) (o o' : obj) : Prop :=
  skel o o' /\ o_world o' = mmul (power (f x) t) (o_world o).
Lemma wpow_trans : forall t f g x a b c, wpow t f x a b -> wpow t g x b c -> wpow t (fun y => (g y + f y)%nat) x a c.
Proof.
  unfold wpow. intros t f g x a b c [A B] [C D]. split; [eapply skel_trans; eauto|].
  rewrite D, B. apply power_plus.
Qed.

Lemma transform_effect : forall asort n l t h h', transform asort n l t h = Ok h' ->
  hrel (wpow t (count_occ Nat.eq_dec (parts_upto n h l))) h h'.
Proof.
  intros asort n. induction n as [|n IH]; intros l t h h' H; [discriminate|]. simpl in H |- *.
  destruct (get h l) as [o|] eqn:G; [|discriminate].
  destruct (append_own asort l t h) as [h1|e h1|] eqn:E; try discriminate. simpl in H.
  pose proof (append_own_world _ _ _ _ _ E) as W1.
  assert (S1 : sks h h1) by (apply (append_own_sks asort l t); rewrite E; auto). clear E.
  assert (W2 : forall cs h1 h', sks h h1 -> each (fun c => transform asort n c t) cs h1 = Ok h' ->
     hrel (wpow t (count_occ Nat.eq_dec (flat_map (parts_upto n h) cs))) h1 h').
  { clear - IH. induction cs as [|c cs IHc]; intros h1 h' S H.
    - injection H as <-. apply hrel_refl. intros x o _. split; [apply skel_refl|]. simpl. rewrite mmul_mid_l; auto.
    - simpl in H. destruct (transform asort n c t h1) as [h2|e h2|] eqn:T; try discriminate. simpl in H.
      pose proof (IH _ _ _ _ T) as W. rewrite (parts_upto_sks n h h1 c S) in W.
      assert (S2 : sks h h2). { eapply sks_trans; [exact S|]. apply (transform_sks asort n c t). rewrite T; auto. }
      specialize (IHc _ _ S2 H).
      eapply hrel_mono; [|eapply hrel_trans; [intros x a b d; apply (wpow_trans t)|exact W|exact IHc]].
      intros x a b _ [A B]. split; auto. simpl. rewrite count_occ_app, Nat.add_comm. auto. }
  specialize (W2 _ _ _ S1 H).
  assert (W1' : hrel (wpow t (fun x => if Nat.eqb x l then 1%nat else 0%nat)) h h1).
  { revert W1. apply hrel_mono. intros x a b _ [A B]. split; auto. destruct (Nat.eqb x l); rewrite B; simpl.
    - rewrite mmul_assoc, mmul_mid_l; auto.
    - rewrite mmul_mid_l; auto. }
  eapply hrel_mono; [|eapply hrel_trans; [intros x a b d; apply (wpow_trans t)|exact W1'|exact W2]].
  intros x a b _ [A B]. split; auto. rewrite B. cbv beta. f_equal. f_equal.
  destruct (Nat.eqb_spec x l) as [E|N]; cbn [count_occ]; destruct (Nat.eq_dec l x) as [E'|N']; try congruence; lia.
Qed.

(** ** consistency of stored values *)
Definition wfo (x : loc) (o : obj) : Prop :=
  In (HMat x) (o_watch o) /\ match o_kind o with KSurf _ _ => In (HLeafBox x) (o_watch o) | _ => True end.
Definition good (x : loc) (o : obj) : Prop := wfo x o /\ matc o /\ boxc o.
Definition all_good (h : heap) : Prop := forall x o, get h x = Some o -> good x o.

Lemma append_own_good : forall asort l t h h', all_good h -> append_own asort l t h = Ok h' -> all_good h'.
Proof.
  intros asort l t h h' A H. unfold append_own in H. destruct (get h l) as [o|] eqn:G; [|discriminate].
  apply run_all_step in H. intros x o' G'. destruct (hrel_get_back _ _ _ _ _ H G') as (o1 & G1 & R).
  destruct R as (R1 & R2 & R3 & R4 & R5 & R6 & R7).
  rewrite get_upd in G1. destruct (Nat.eqb_spec x l) as [->|N].
  - rewrite G in G1. injection G1 as <-. destruct (A _ _ G) as ((W1 & W2) & _ & _).
    destruct R1 as (_ & K & Wt & _). cbn [with_world o_kind o_watch] in *.
    split; [unfold wfo; rewrite Wt, K; auto|]. split; [apply R4, W1|].
    destruct (o_kind o) eqn:Ko; try (unfold boxc; rewrite K; exact I). apply R7, W2.
  - destruct (A _ _ G1) as ((W1 & W2) & M & B). destruct R1 as (_ & K & Wt & _).
    split; [unfold wfo; rewrite Wt, K; auto|]. split; [|auto]. destruct R3 as [R3|[_ R3]]; auto. eapply matc_eq; eauto.
Qed.
Lemma transform_good : forall asort n l t h h', all_good h -> transform asort n l t h = Ok h' -> all_good h'.
Proof.
  intros asort n. induction n as [|n IH]; intros l t h h' A H; [discriminate|]. simpl in H.
  destruct (get h l) as [o|] eqn:G; [|discriminate].
  destruct (append_own asort l t h) as [h1|e h1|] eqn:E; try discriminate. simpl in H.
  apply append_own_good in E; auto. clear A G. revert h1 E H.
  induction (children (o_kind o)) as [|c cs IHc]; intros h1 E H.
  - injection H as <-. auto.
  - simpl in H. destruct (transform asort n c t h1) as [h2|e h2|] eqn:T; try discriminate. simpl in H. eauto.
Qed.

(** constructors *)
Lemma get_alloc_old : forall k h x, (x < length (h_objs h))%nat -> get (alloc k h) x = get h x.
Proof. intros k h x L. unfold get, alloc; cbn [h_objs]. apply nth_error_app1; auto. Qed.
Lemma get_alloc_new : forall k h, get (alloc k h) (fresh h) =
  Some (Obj (h_next h) k mid mid (point 0 0 0) (vector 0 0 1) [HMat (fresh h)] empty_box 1).
Proof. intros k h. unfold get, alloc, fresh; cbn [h_objs]. rewrite nth_error_app2, Nat.sub_diag by lia. auto. Qed.
Lemma len_alloc : forall k h, length (h_objs (alloc k h)) = S (length (h_objs h)).
Proof. intros. unfold alloc; cbn [h_objs]. rewrite app_length; simpl; lia. Qed.
Lemma get_alloc : forall k h x o, get (alloc k h) x = Some o -> get h x = Some o \/
  x = fresh h /\ o = Obj (h_next h) k mid mid (point 0 0 0) (vector 0 0 1) [HMat (fresh h)] empty_box 1.
Proof.
  intros k h x o G. pose proof (get_lt _ _ _ G) as L. rewrite len_alloc in L.
  destruct (Nat.eq_dec x (fresh h)) as [->|N].
  - rewrite get_alloc_new in G. right. split; congruence.
  - left. unfold fresh in N. rewrite get_alloc_old in G by lia. auto.
Qed.
Lemma obj_z_norm : vnorm (vector 0 0 1) = 1.
Proof. unfold vnorm, vdot, vector; cbn [vx vy vz vw]. replace (0*0+0*0+1*1+0*0) with 1 by ring. apply sqrt_1. Qed.
Lemma fresh_matc : forall i k l w b, matc (Obj i k mid mid (point 0 0 0) (vector 0 0 1) w b l).
Proof.
  intros. unfold matc, obj_origin, obj_direction; cbn [o_world o_obj o_origin o_dir]. rewrite !mapply_mid.
  split; [apply is_inverse_mid|]. split; auto. rewrite obj_z_norm. split; [unfold dir_tolerance; lra|].
  rewrite Rinv_1, vscale_1. auto.
Qed.
Lemma surf_box_start : forall p, bounding_box (bounding_points p) = surf_box p mid.
Proof.
  intro p. unfold surf_box. f_equal. rewrite <- (map_id (bounding_points p)) at 1. apply map_ext. intro; symmetry; apply mapply_mid.
Qed.

(** things that only change watchlists (by extension), boxes of CSG nodes or normals *)
Definition ext (x : loc) (o o' : obj) : Prop :=
  o_id o' = o_id o /\ o_kind o' = o_kind o /\ o_world o' = o_world o /\ mats_eq o o' /\
  (exists w, o_watch o' = o_watch o ++ w) /\
  match o_kind o with KSurf _ _ => o_box o' = o_box o | _ => True end.
Lemma ext_refl : forall x o, ext x o o.
Proof. intros x o. unfold ext, mats_eq. repeat split; auto. - exists []. rewrite app_nil_r; auto. - destruct (o_kind o); auto. Qed.
Lemma ext_trans : forall x a b c, ext x a b -> ext x b c -> ext x a c.
Proof.
  unfold ext, mats_eq. intros x a b c (A1 & A2 & A3 & (A4 & A5 & A6) & (w & A7) & A8) (B1 & B2 & B3 & (B4 & B5 & B6) & (w' & B7) & B8).
  split; [congruence|]. split; [congruence|]. split; [congruence|]. split; [repeat split; congruence|].
  split; [exists (w ++ w'); rewrite B7, A7, app_assoc; auto|]. rewrite A2 in B8. destruct (o_kind a); congruence.
Qed.
Lemma ext_good : forall x o o', ext x o o' -> good x o -> good x o'.
Proof.
  unfold ext, good, wfo, boxc. intros x o o' (A1 & A2 & A3 & A4 & (w & A7) & A8) ((W1 & W2) & M & B).
  split; [|split; [eapply matc_eq; eauto|]].
  - rewrite A7, A2. split; [apply in_app_iff; auto|]. destruct (o_kind o); auto. apply in_app_iff; auto.
  - rewrite A2, A3. destruct (o_kind o); congruence.
Qed.
Definition exts := hrel ext.
Lemma exts_refl : forall h, exts h h.
Proof. intro h. apply hrel_refl. intros; apply ext_refl. Qed.
Lemma exts_trans : forall a b c, exts a b -> exts b c -> exts a c.
Proof. intros a b c. apply hrel_trans. exact ext_trans. Qed.
Lemma exts_good : forall h h', exts h h' -> all_good h -> all_good h'.
Proof. intros h h' E A x o' G. destruct (hrel_get_back _ _ _ _ _ E G) as (o & G1 & K). eapply ext_good; eauto. Qed.
Lemma exts_upd : forall h l f, (forall o, get h l = Some o -> ext l o (f o)) -> exts h (upd h l f).
Proof. intros. apply hrel_upd; auto. intros; apply ext_refl. Qed.

Lemma attach_exts : forall c p h h', res_heap (attach_to c p h) = Some h' -> exts h h'.
Proof.
  intros c p h h' H. unfold attach_to in H. destruct (get h c) as [oc|] eqn:G; [|injection H as <-; apply exts_refl].
  destruct (get h p) as [op|]; [|injection H as <-; apply exts_refl].
  destruct (o_kind oc) eqn:K; injection H as <-; try apply exts_refl;
  (apply exts_upd; intros o0 G0; rewrite G in G0; injection G0 as <-; unfold ext, mats_eq; simpl; repeat split; eauto;
   destruct (o_kind oc); auto).
Qed.
Lemma set_normals_exts : forall n k l h h', res_heap (set_normals n k l h) = Some h' -> exts h h'.
Proof.
  induction n as [|n IH]; intros k l h h' H; [discriminate|]. simpl in H.
  destruct (get h l) as [o|] eqn:G; [|injection H as <-; apply exts_refl].
  destruct (o_kind o) eqn:K; try (injection H as <-; apply exts_refl).
  - injection H as <-. apply exts_upd. intros o0 G0. rewrite G in G0. injection G0 as <-.
    unfold ext, mats_eq; simpl. rewrite K. repeat split; eauto. exists []. rewrite app_nil_r; auto.
  - destruct (res_heap_bind _ _ _ H) as [(h1 & E & K1)|(e & E)].
    + eapply exts_trans; [apply (IH k l0); rewrite E; reflexivity|eauto].
    + apply (IH k l0). rewrite E; auto.
Qed.
Lemma csgbox_exts : forall asort l h h', res_heap (run_handler asort (HCsgBox l) h) = Some h' -> exts h h'.
Proof.
  intros asort l h h' H. simpl in H. destruct (get h l) as [o|] eqn:G; [|injection H as <-; apply exts_refl].
  destruct (o_kind o) eqn:K; try (injection H as <-; apply exts_refl).
  destruct (box_of h l0); [|injection H as <-; apply exts_refl]. destruct (box_of h r); [|injection H as <-; apply exts_refl].
  injection H as <-. apply exts_upd. intros o0 G0. rewrite G in G0. injection G0 as <-.
  unfold ext, mats_eq; simpl. rewrite K. repeat split; eauto. exists []. rewrite app_nil_r; auto.
Qed.

Definition csg_start (op : operation) (a b : loc) (h : heap) : heap :=
  upd (alloc (KCsg op a b) h) (fresh h) (fun o => with_watch (o_watch o ++ [HCsgBox (fresh h)]) o).
Lemma new_csg_exts : forall asort op a b h h', res_heap (new_csg asort op a b h) = Some h' ->
  h' = h \/ exts (csg_start op a b h) h'.
Proof.
  intros asort op a b h h' H. unfold new_csg in H. destruct (negb (valid_locs h [a; b])); [left; injection H as <-; auto|right].
  cbv zeta in H. fold (csg_start op a b h) in H.
  destruct (res_heap_bind _ _ _ H) as [(h3 & E3 & K3)|(e & E3)];
    [|apply (attach_exts a (fresh h)); rewrite E3; auto].
  eapply exts_trans; [apply (attach_exts a (fresh h)); rewrite E3; reflexivity|]. clear H E3.
  destruct (res_heap_bind _ _ _ K3) as [(h4 & E4 & K4)|(e & E4)];
    [|apply (attach_exts b (fresh h)); rewrite E4; auto].
  eapply exts_trans; [apply (attach_exts b (fresh h)); rewrite E4; reflexivity|]. clear K3 E4.
  assert (X : forall r, r = (match op with DIFFERENCE => set_normals (depth h4) (-1) b h4 | _ => Ok h4 end) ->
     forall h5, res_heap r = Some h5 -> exts h4 h5).
  { intros r -> h5 Hr. destruct op; try (injection Hr as <-; apply exts_refl). eapply set_normals_exts; eauto. }
  destruct (res_heap_bind _ _ _ K4) as [(h5 & E5 & K5)|(e & E5)].
  - eapply exts_trans; [eapply X; [reflexivity|rewrite E5; reflexivity]|]. eapply csgbox_exts; eauto.
  - eapply X; [reflexivity|rewrite E5; auto].
Qed.

Lemma upd_watch_matc : forall o w, matc o -> matc (with_watch w o).
Proof. auto. Qed.

Lemma run_call_good : forall asort c h h', all_good h -> run_call asort c h = Ok h' -> all_good h'.
Proof.
  intros asort c h h' A H. destruct c as [|p m|ms|g ms|op a b|l o|l|l]; cbn [run_call] in H.
  - injection H as <-. intros x o G. destruct (get_alloc _ _ _ _ G) as [G1|(-> & ->)]; [auto|].
    split; [split; simpl; auto|]. split; [apply fresh_matc|exact I].
  - unfold new_surface in H. destruct (prim_init p) eqn:P; [|discriminate]. injection H as <-.
    intros x o G. rewrite !get_upd in G. destruct (Nat.eqb_spec x (fresh h)) as [->|N].
    + rewrite get_alloc_new in G. simpl in G. injection G as <-.
      split; [split; simpl; auto|]. split; [apply fresh_matc|apply surf_box_start].
    + destruct (get_alloc _ _ _ _ G) as [G1|(K & _)]; [auto|contradiction].
  - unfold new_group in H. destruct (valid_locs h ms); [|discriminate]. injection H as <-.
    intros x o G. destruct (get_alloc _ _ _ _ G) as [G1|(-> & ->)]; [auto|].
    split; [split; simpl; auto|]. split; [apply fresh_matc|exact I].
  - unfold group_set in H. destruct (get h g) as [o|] eqn:G; [|discriminate]. destruct (o_kind o) eqn:K; try discriminate.
    destruct (valid_locs h ms); [|discriminate]. injection H as <-. intros x o' G'. rewrite get_upd in G'.
    destruct (Nat.eqb_spec x g) as [->|N]; [|auto]. rewrite G in G'. injection G' as <-.
    destruct (A _ _ G) as ((W & _) & M & _). split; [split; simpl; auto|]. split; [exact M|exact I].
  - destruct (new_csg_exts asort op a b h h') as [->|X]; [rewrite H; reflexivity|auto|].
    eapply exts_good; [exact X|].
    intros x o G. unfold csg_start in G. rewrite get_upd in G. destruct (Nat.eqb_spec x (fresh h)) as [->|N].
    + rewrite get_alloc_new in G. simpl in G. injection G as <-. split; [split; simpl; auto|]. split; [apply fresh_matc|exact I].
    + destruct (get_alloc _ _ _ _ G) as [G1|(K & _)]; [auto|contradiction].
  - unfold apply_motion in H. destruct (motion_matrix o); [|discriminate]. eapply transform_good; eauto.
  - eapply exts_good; [eapply (set_normals_exts _ (-1)); rewrite H; reflexivity|auto].
  - eapply exts_good; [eapply (set_normals_exts _ 1); rewrite H; reflexivity|auto].
Qed.
Lemma run_prog_good : forall asort cs h h', all_good h -> run_prog asort cs h = Ok h' -> all_good h'.
Proof.
  intros asort cs. induction cs as [|c cs IH]; intros h h' A H.
  - injection H as <-. auto.
  - simpl in H. destruct (run_call asort c h) as [h1|e h1|] eqn:E; try discriminate. apply (IH h1); auto.
    eapply run_call_good; eauto.
Qed.
Lemma empty_good : all_good empty_heap.
Proof. intros [|x] o G; discriminate. Qed.

(** ** pointwise corollaries *)
Lemma matc_consistent : forall o, matc o -> consistent o.
Proof.
  intros o (I & P & T & D). unfold consistent, get_world_transform, get_object_transform, to_object_coordinates,
    to_world_coordinates, get_position, get_orientation.
  split; [exact I|]. split; [intro v; apply (inverse_apply_l _ _ _ I)|]. split; [intro v; apply (inverse_apply_r _ _ _ I)|].
  split; [exact P|]. set (d := mapply (o_world o) obj_direction) in *.
  assert (N : 0 < vnorm d) by (unfold dir_tolerance in T; lra). split.
  - rewrite D. unfold vnorm at 1. rewrite vdot_scale_l, vdot_scale_r, <- vnorm_sq.
    replace (/ vnorm d * (/ vnorm d * (vnorm d * vnorm d))) with 1 by (field; lra). apply sqrt_1.
  - exists (/ vnorm d). split; [apply Rinv_0_lt_compat; auto|exact D].
Qed.
