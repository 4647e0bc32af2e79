(** * RefsFacts: objects with addresses do what objects with values do *)
From Coq Require Import Reals List Bool ZArith Lia.
Import ListNotations.
From Verif Require Import XR Arr Lin Prim Csg Surf World Refs SpecRefs.
Open Scope R_scope.

(** Objects in step: [st] says whether positions and orientations are, too. *)
Record sim_obj (st : bool) (mem : list array) (o : robj) (w : obj) : Prop := SimObj {
  so_id : r_id o = o_id w;
  so_kind : r_kind o = o_kind w;
  so_watch : r_watch o = o_watch w;
  so_box : r_box o = o_box w;
  so_nscale : r_nscale o = o_nscale w;
  so_world : nth_error mem (r_world o) = Some (AMat (o_world w));
  so_obj : nth_error mem (r_obj o) = Some (AMat (o_obj w));
  so_oo : nth_error mem (r_obj_origin o) = Some (AVec obj_origin);
  so_od : nth_error mem (r_obj_dir o) = Some (AVec obj_direction);
  so_origin : exists v, nth_error mem (r_origin o) = Some (AVec v) /\ (st = true -> v = o_origin w);
  so_dir : exists v, nth_error mem (r_dir o) = Some (AVec v) /\ (st = true -> v = o_dir w)
}.
Definition private (o : robj) (a : addr) : Prop := a = r_world o \/ a = r_obj o \/ a = r_obj_origin o \/ a = r_obj_dir o.
Definition place (o : robj) (a : addr) : Prop := a = r_origin o \/ a = r_dir o.
(** The memory has only grown since it was [M]; no address below its length that the caller holds is private. *)
Record sim (st : bool) (held : list addr) (M : list array) (rh : rheap) (h : heap) : Prop := Sim {
  si_next : rh_next rh = h_next h;
  si_objs : Forall2 (sim_obj st (rh_mem rh)) (rh_objs rh) (h_objs h);
  si_grown : exists ex, rh_mem rh = M ++ ex;
  si_held : forall a, In a held -> (a < length M)%nat;
  si_private : forall o a, In o (rh_objs rh) -> In a held -> ~ private o a;
  si_apart : forall o o' a, In o (rh_objs rh) -> In o' (rh_objs rh) -> private o a -> ~ place o' a
}.
Definition sim_res (st : bool) (held : list addr) (M : list array) (x : rres) (y : res) : Prop :=
  match x, y with
  | ROk rh, Ok h => sim st held M rh h
  | RRaise e rh, Raise e' h => e = e' /\ sim st held M rh h
  | RDiverge, Diverge => True
  | _, _ => False
  end.

(** ** Lists *)
Lemma F2_some : forall {A B : Type} (P : A -> B -> Prop) l1 l2, Forall2 P l1 l2 -> forall i x, nth_error l1 i = Some x -> exists y, nth_error l2 i = Some y /\ P x y.
Proof. induction 1 as [|a b l1 l2 H F IH]; intros [|i] x E; try discriminate; cbn in *; [injection E as <-; eauto|eauto]. Qed.
Lemma F2_none : forall {A B : Type} (P : A -> B -> Prop) l1 l2, Forall2 P l1 l2 -> forall i, nth_error l1 i = None <-> nth_error l2 i = None.
Proof. induction 1 as [|a b l1 l2 H F IH]; intros [|i]; cbn; [tauto..|split; discriminate|apply IH]. Qed.
Lemma F2_upd : forall {A B : Type} (P : A -> B -> Prop) l1 l2, Forall2 P l1 l2 -> forall i f g,
  (forall x y, nth_error l1 i = Some x -> nth_error l2 i = Some y -> P x y -> P (f x) (g y)) -> Forall2 P (list_upd l1 i f) (list_upd l2 i g).
Proof. induction 1 as [|a b l1 l2 H F IH]; intros [|i] f g K; cbn; constructor; auto. Qed.
Lemma nth_upd : forall {A : Type} (l : list A) i f j, nth_error (list_upd l i f) j = if Nat.eqb i j then option_map f (nth_error l j) else nth_error l j.
Proof. induction l as [|x l IH]; intros [|i] f [|j]; cbn; try reflexivity; [destruct (Nat.eqb i j); reflexivity|apply IH]. Qed.
Lemma in_upd : forall {A : Type} (l : list A) i f x, In x (list_upd l i f) -> In x l \/ exists y, nth_error l i = Some y /\ x = f y.
Proof.
  intros A l i f x I. apply In_nth_error in I as [j E]. rewrite nth_upd in E. destruct (Nat.eqb_spec i j) as [->|_].
  - destruct (nth_error l j) as [y|] eqn:N; [|discriminate]. injection E as <-. right. eauto.
  - left. eapply nth_error_In; eauto.
Qed.
Lemma len_upd : forall {A : Type} (l : list A) i f, length (list_upd l i f) = length l.
Proof. induction l as [|x l IH]; intros [|i] f; cbn; auto. Qed.
Lemma nth_grown : forall (M ex : list array) a x, nth_error M a = Some x -> nth_error (M ++ ex) a = Some x.
Proof. intros M ex a x E. rewrite nth_error_app1; [exact E|]. apply nth_error_Some. congruence. Qed.

Lemma F2_impl : forall {A B : Type} (P Q : A -> B -> Prop) l1 l2, (forall x y, P x y -> Q x y) -> Forall2 P l1 l2 -> Forall2 Q l1 l2.
Proof. intros A B P Q l1 l2 K F. induction F; constructor; auto. Qed.

Lemma F2_length : forall {A B : Type} (P : A -> B -> Prop) l1 l2, Forall2 P l1 l2 -> length l1 = length l2.
Proof. intros A B P l1 l2 F. induction F; cbn; auto. Qed.

(** ** Elementary steps *)
Lemma sim_obj_grown : forall st mem ex o w, sim_obj st mem o w -> sim_obj st (mem ++ ex) o w.
Proof.
  intros st mem ex o w [A B C D E F G H I J K]. destruct J as (v & J & J2), K as (u & K & K2).
  constructor; auto using nth_grown; [exists v|exists u]; auto using nth_grown.
Qed.
Lemma sim_new : forall st held M rh h x, sim st held M rh h -> sim st held M (new_arr x rh) h.
Proof.
  intros st held M rh h x [A B (ex & C) D E F]. constructor; cbn; auto.
  - eapply F2_impl; [|exact B]. intros; apply sim_obj_grown; assumption.
  - exists (ex ++ [x]). rewrite C, app_assoc. reflexivity.
Qed.
Lemma nth_new : forall x rh, nth_error (rh_mem (new_arr x rh)) (length (rh_mem rh)) = Some x.
Proof. intros x rh. cbn. rewrite nth_error_app2, Nat.sub_diag by lia. reflexivity. Qed.
Lemma grown_len : forall st held M rh h, sim st held M rh h -> (length M <= length (rh_mem rh))%nat.
Proof. intros st held M rh h [_ _ (ex & ->) _ _ _]. rewrite app_length. lia. Qed.
(** An address nobody has *)
Definition clean (M : list array) (rh : rheap) (x : addr) : Prop :=
  (length M <= x)%nat /\ forall o, In o (rh_objs rh) -> ~ private o x /\ ~ place o x.
Lemma sim_used : forall st held M rh h o a, sim st held M rh h -> In o (rh_objs rh) -> private o a \/ place o a -> (a < length (rh_mem rh))%nat.
Proof.
  intros st held M rh h o a S I P. apply In_nth_error in I as [l I].
  destruct (F2_some _ _ _ (si_objs _ _ _ _ _ S) l o I) as (w & _ & [_ _ _ _ _ A B C D (v & E & _) (u & F & _)]).
  apply nth_error_Some. destruct P as [[->|[->|[->| ->]]]|[->| ->]]; congruence.
Qed.
Lemma sim_clean : forall st held M rh h, sim st held M rh h -> clean M rh (length (rh_mem rh)).
Proof.
  intros st held M rh h S. split; [eapply grown_len; exact S|]. intros o I. split; intro P; assert (length (rh_mem rh) < length (rh_mem rh))%nat by (eapply sim_used; eauto); lia.
Qed.
Lemma sim_upd : forall st held M rh h l f g x, sim st held M rh h -> clean M rh x ->
  (forall o w, rget rh l = Some o -> get h l = Some w -> sim_obj st (rh_mem rh) o w -> sim_obj st (rh_mem rh) (f o) (g w)) ->
  (forall o a, private (f o) a -> private o a \/ a = x) -> (forall o a, place (f o) a -> place o a \/ a = x) ->
  (forall o, (forall a, private (f o) a -> private o a) \/ (forall a, place (f o) a -> place o a)) ->
  sim st held M (rupd rh l f) (upd h l g).
Proof.
  intros st held M rh h l f g x [A B C D E F] (LX & X) K P Q PQ. constructor; cbn; auto.
  - apply F2_upd; auto.
  - intros o a I J N. apply in_upd in I as [I|(y & Y & ->)]; [exact (E o a I J N)|].
    destruct (P y a N) as [R| ->]; [exact (E y a (nth_error_In _ _ Y) J R)|]. apply D in J. lia.
  - intros o o' a I I' N N'. apply in_upd in I as [I|(y & Y & ->)]; apply in_upd in I' as [I'|(y' & Y' & ->)].
    + exact (F o o' a I I' N N').
    + destruct (Q y' a N') as [R| ->]; [exact (F o y' a I (nth_error_In _ _ Y') N R)|]. apply (proj1 (X o I)). exact N.
    + destruct (P y a N) as [R| ->]; [exact (F y o' a (nth_error_In _ _ Y) I' R N')|]. apply (proj2 (X o' I')). exact N'.
    + rewrite Y in Y'. injection Y' as <-. pose proof (nth_error_In _ _ Y) as IY. destruct (P y a N) as [R| ->].
      * destruct (Q y a N') as [R'| ->]; [exact (F y y a IY IY R R')|]. apply (proj1 (X y IY)). exact R.
      * destruct (PQ y) as [Z|Z]; [apply (proj1 (X y IY))|apply (proj2 (X y IY))]; auto.
Qed.
Lemma sim_upd_same : forall st held M rh h l f g, sim st held M rh h ->
  (forall o w, rget rh l = Some o -> get h l = Some w -> sim_obj st (rh_mem rh) o w -> sim_obj st (rh_mem rh) (f o) (g w)) ->
  (forall o, r_world (f o) = r_world o /\ r_obj (f o) = r_obj o /\ r_obj_origin (f o) = r_obj_origin o /\ r_obj_dir (f o) = r_obj_dir o /\ r_origin (f o) = r_origin o /\ r_dir (f o) = r_dir o) ->
  sim st held M (rupd rh l f) (upd h l g).
Proof.
  intros st held M rh h l f g S K E. assert (P1 : forall o a, private (f o) a -> private o a).
  { intros o a. unfold private. destruct (E o) as (-> & -> & -> & -> & _). auto. }
  assert (P2 : forall o a, place (f o) a -> place o a).
  { intros o a. unfold place. destruct (E o) as (_ & _ & _ & _ & -> & ->). auto. }
  apply sim_upd with (x := length (rh_mem rh)); auto. eapply sim_clean; exact S.
Qed.
(** A new array, bound *)
Lemma clean_new : forall st held M rh h x, sim st held M rh h -> clean M (new_arr x rh) (length (rh_mem rh)).
Proof. intros. eapply sim_clean in H. exact H. Qed.
Lemma sim_get : forall st held M rh h l o, sim st held M rh h -> rget rh l = Some o -> exists w, get h l = Some w /\ sim_obj st (rh_mem rh) o w.
Proof. intros st held M rh h l o S G. exact (F2_some _ _ _ (si_objs _ _ _ _ _ S) l o G). Qed.
Lemma sim_none : forall st held M rh h l, sim st held M rh h -> rget rh l = None -> get h l = None.
Proof. intros st held M rh h l S G. apply (F2_none _ _ _ (si_objs _ _ _ _ _ S) l). exact G. Qed.
Lemma mat_in_some : forall rh a m, nth_error (rh_mem rh) a = Some (AMat m) -> mat_in rh a = Some m.
Proof. intros rh a m E. unfold mat_in. rewrite E. reflexivity. Qed.
Lemma vec_in_some : forall rh a v, nth_error (rh_mem rh) a = Some (AVec v) -> vec_in rh a = Some v.
Proof. intros rh a m E. unfold vec_in. rewrite E. reflexivity. Qed.
Lemma sim_len : forall st held M rh h, sim st held M rh h -> length (rh_objs rh) = length (h_objs h).
Proof. intros st held M rh h S. exact (F2_length _ _ _ (si_objs _ _ _ _ _ S)). Qed.

Ltac bound := unfold private, place; cbn [bind_world bind_obj bind_origin bind_dir r_world r_obj r_obj_origin r_obj_dir r_origin r_dir]; intros; intuition auto.

Section Sorting.
  Variable asort : list xr -> list nat.
  Variable st : bool.
  Variable held : list addr.
  Variable M : list array.
  Notation Sim := (sim st held M).
  Notation SimR := (sim_res st held M).

  Lemma bind_sim : forall x y k k', SimR x y -> (forall rh h, Sim rh h -> SimR (k rh) (k' h)) -> SimR (rbind x k) (bind y k').
  Proof. intros [rh|e rh|] [h|e' h|] k k' S K; cbn in *; try tauto; auto. Qed.

  Lemma box_sim : forall rh h l, Sim rh h -> rbox_of rh l = box_of h l.
  Proof.
    intros rh h l S. unfold rbox_of, box_of. destruct (rget rh l) as [o|] eqn:G.
    - destruct (sim_get _ _ _ _ _ _ _ S G) as (w & -> & O). rewrite (so_kind _ _ _ _ O), (so_box _ _ _ _ O). reflexivity.
    - rewrite (sim_none _ _ _ _ _ _ S G). reflexivity.
  Qed.

  Lemma handler_sim : forall w rh h, Sim rh h -> SimR (rrun_handler asort w rh) (run_handler asort w h).
  Proof.
    intros [l|l|l] rh h S; cbn [rrun_handler run_handler].
    - destruct (rget rh l) as [o|] eqn:G; [|rewrite (sim_none _ _ _ _ _ _ S G); split; auto].
      destruct (sim_get _ _ _ _ _ _ _ S G) as (w & GW & O). rewrite GW.
      rewrite (mat_in_some _ _ _ (so_world _ _ _ _ O)), (vec_in_some _ _ _ (so_oo _ _ _ _ O)), (vec_in_some _ _ _ (so_od _ _ _ _ O)).
      set (m := o_world w). pose proof (grown_len _ _ _ _ _ S) as LM.
      set (x1 := AVec (mapply m obj_origin)). set (d := mapply m obj_direction).
      assert (S1 : Sim (rupd (new_arr x1 rh) l (bind_origin (length (rh_mem rh)))) (upd h l (with_origin (mapply m obj_origin)))).
      { eapply sim_upd; [apply sim_new; exact S|eapply clean_new; exact S| |bound..].
        - intros o' w' _ _ [A1 A2 A3 A4 A5 A6 A7 A8 A9 A10 A11]. constructor; cbn [bind_origin with_origin r_id r_kind r_watch r_box r_nscale r_world r_obj r_obj_origin r_obj_dir r_origin r_dir o_id o_kind o_watch o_box o_nscale o_world o_obj o_origin o_dir]; auto.
          exists (mapply m obj_origin). split; [apply nth_new|reflexivity].
        }
      cbv zeta. destruct (rltb (vnorm d) dir_tolerance); [split; [reflexivity|exact S1]|].
      set (r1 := rupd (new_arr x1 rh) l (bind_origin (length (rh_mem rh)))) in *. set (h1 := upd h l (with_origin (mapply m obj_origin))) in *.
      assert (L1 : Datatypes.S (length (rh_mem rh)) = length (rh_mem r1)) by (unfold r1; cbn; rewrite app_length; cbn; lia).
      set (x2 := AVec (vscale (/ vnorm d) d)).
      assert (S2 : Sim (rupd (new_arr x2 r1) l (bind_dir (Datatypes.S (length (rh_mem rh))))) (upd h1 l (with_dir (vscale (/ vnorm d) d)))).
      { rewrite L1. eapply sim_upd; [apply sim_new; exact S1|eapply clean_new; exact S1| |bound..].
        - intros o' w' _ _ [A1 A2 A3 A4 A5 A6 A7 A8 A9 A10 A11]. constructor; cbn [bind_dir with_dir r_id r_kind r_watch r_box r_nscale r_world r_obj r_obj_origin r_obj_dir r_origin r_dir o_id o_kind o_watch o_box o_nscale o_world o_obj o_origin o_dir]; auto.
          exists (vscale (/ vnorm d) d). split; [apply nth_new|reflexivity].
        }
      destruct (minv m) as [i|]; [|split; [reflexivity|exact S2]].
      set (r2 := rupd (new_arr x2 r1) l (bind_dir (Datatypes.S (length (rh_mem rh))))) in *. set (h2 := upd h1 l (with_dir (vscale (/ vnorm d) d))) in *.
      assert (L2 : Datatypes.S (Datatypes.S (length (rh_mem rh))) = length (rh_mem r2)) by (unfold r2; cbn; rewrite app_length; cbn in *; lia).
      cbn [sim_res]. rewrite L2. eapply sim_upd; [apply sim_new; exact S2|eapply clean_new; exact S2| |bound..].
      + intros o' w' _ _ [A1 A2 A3 A4 A5 A6 A7 A8 A9 A10 A11]. constructor; cbn [bind_obj with_obj r_id r_kind r_watch r_box r_nscale r_world r_obj r_obj_origin r_obj_dir r_origin r_dir o_id o_kind o_watch o_box o_nscale o_world o_obj o_origin o_dir]; auto. apply nth_new.
    - destruct (rget rh l) as [o|] eqn:G; [|rewrite (sim_none _ _ _ _ _ _ S G); split; auto].
      destruct (sim_get _ _ _ _ _ _ _ S G) as (w & GW & O). rewrite GW, (mat_in_some _ _ _ (so_world _ _ _ _ O)), (so_kind _ _ _ _ O).
      destruct (o_kind w); try (split; auto; fail). cbn. apply sim_upd_same; [exact S| |intro; cbn; auto 10].
      intros o' w' _ _ [A1 A2 A3 A4 A5 A6 A7 A8 A9 A10 A11]. constructor; auto.
    - destruct (rget rh l) as [o|] eqn:G; [|rewrite (sim_none _ _ _ _ _ _ S G); split; auto].
      destruct (sim_get _ _ _ _ _ _ _ S G) as (w & GW & O). rewrite GW, (so_kind _ _ _ _ O).
      destruct (o_kind w) as [|p m|op lc rc|ms]; try (split; auto; fail). rewrite (box_sim rh h lc S), (box_sim rh h rc S).
      destruct (box_of h lc); [|split; auto]. destruct (box_of h rc); [|split; auto]. cbn. apply sim_upd_same; [exact S| |intro; cbn; auto 10].
      intros o' w' _ _ [A1 A2 A3 A4 A5 A6 A7 A8 A9 A10 A11]. constructor; auto.
  Qed.
  Lemma all_sim : forall ws rh h, Sim rh h -> SimR (rrun_all asort ws rh) (run_all asort ws h).
  Proof. induction ws as [|w ws IH]; intros rh h S; cbn; [exact S|]. apply bind_sim; [apply handler_sim; exact S|exact IH]. Qed.

  Lemma append_sim : forall l a t rh h, Sim rh h -> nth_error M a = Some (AMat t) -> SimR (rappend_own asort l a rh) (append_own asort l t h).
  Proof.
    intros l a t rh h S E. unfold rappend_own, append_own. destruct (rget rh l) as [o|] eqn:G; [|rewrite (sim_none _ _ _ _ _ _ S G); split; auto].
    destruct (sim_get _ _ _ _ _ _ _ S G) as (w & GW & O). rewrite GW, (mat_in_some _ _ _ (so_world _ _ _ _ O)), (so_watch _ _ _ _ O).
    assert (EA : mat_in rh a = Some t) by (apply mat_in_some; destruct (si_grown _ _ _ _ _ S) as (ex & ->); apply nth_grown; exact E). rewrite EA.
    pose proof (grown_len _ _ _ _ _ S) as LM.
    apply all_sim. eapply sim_upd; [apply sim_new; exact S|eapply clean_new; exact S| |bound..].
    - intros o' w' _ GW' [A1 A2 A3 A4 A5 A6 A7 A8 A9 A10 A11]. constructor; cbn [bind_world with_world r_id r_kind r_watch r_box r_nscale r_world r_obj r_obj_origin r_obj_dir r_origin r_dir o_id o_kind o_watch o_box o_nscale o_world o_obj o_origin o_dir]; auto.
      apply nth_new.
  Qed.
  Lemma each_sim : forall f g, (forall l rh h, Sim rh h -> SimR (f l rh) (g l h)) -> forall ls rh h, Sim rh h -> SimR (each_part f ls rh) (each g ls h).
  Proof. intros f g K. induction ls as [|l ls IH]; intros rh h S; cbn; [exact S|]. apply bind_sim; [apply K; exact S|exact IH]. Qed.
  Lemma transform_sim : forall n l a t rh h, Sim rh h -> nth_error M a = Some (AMat t) -> SimR (rtransform asort n l a rh) (transform asort n l t h).
  Proof.
    induction n as [|n IH]; intros l a t rh h S E; cbn [rtransform transform]; [exact I|].
    destruct (rget rh l) as [o|] eqn:G; [|rewrite (sim_none _ _ _ _ _ _ S G); split; auto].
    destruct (sim_get _ _ _ _ _ _ _ S G) as (w & GW & O). rewrite GW, (so_kind _ _ _ _ O).
    apply bind_sim; [apply append_sim; assumption|]. intros rh' h' S'. apply each_sim; [|exact S']. intros; apply IH; assumption.
  Qed.
  Lemma normals_sim : forall n k l rh h, Sim rh h -> SimR (rset_normals n k l rh) (set_normals n k l h).
  Proof.
    induction n as [|n IH]; intros k l rh h S; cbn [rset_normals set_normals]; [exact I|].
    destruct (rget rh l) as [o|] eqn:G; [|rewrite (sim_none _ _ _ _ _ _ S G); split; auto].
    destruct (sim_get _ _ _ _ _ _ _ S G) as (w & GW & O). rewrite GW, (so_kind _ _ _ _ O).
    destruct (o_kind w) as [|p m|op lc rc|ms]; try (split; auto; fail).
    - cbn. apply sim_upd_same; [exact S| |intro; cbn; auto 10]. intros o' w' _ _ [A1 A2 A3 A4 A5 A6 A7 A8 A9 A10 A11]. constructor; auto.
    - apply bind_sim; auto.
  Qed.
  Lemma attach_sim : forall c p rh h, Sim rh h -> SimR (rattach_to c p rh) (attach_to c p h).
  Proof.
    intros c p rh h S. unfold rattach_to, attach_to. destruct (rget rh c) as [o|] eqn:G; [|rewrite (sim_none _ _ _ _ _ _ S G); split; auto].
    destruct (sim_get _ _ _ _ _ _ _ S G) as (w & GW & O). rewrite GW.
    destruct (rget rh p) as [o2|] eqn:G2; [|rewrite (sim_none _ _ _ _ _ _ S G2); split; auto].
    destruct (sim_get _ _ _ _ _ _ _ S G2) as (w2 & GW2 & O2). rewrite GW2, (so_kind _ _ _ _ O), (so_watch _ _ _ _ O), (so_watch _ _ _ _ O2).
    destruct (o_kind w) as [|p' m|op lc rc|ms]; try (split; auto; fail);
      cbn; (apply sim_upd_same; [exact S| |intro; cbn; auto 10]); intros o' w' _ _ [A1 A2 A3 A4 A5 A6 A7 A8 A9 A10 A11]; constructor; auto.
  Qed.
  Lemma alloc_sim : forall k rh h, Sim rh h -> Sim (ralloc k rh) (alloc k h).
  Proof.
    intros k rh h S. pose proof (grown_len _ _ _ _ _ S) as LM. pose proof (sim_len _ _ _ _ _ S) as LO. pose proof (fun o a => sim_used _ _ _ _ _ o a S) as U. destruct S as [A B (ex & C) D E F]. unfold ralloc, alloc. constructor; cbn [rh_next rh_mem rh_objs h_next h_objs].
    - rewrite A. reflexivity.
    - apply Forall2_app; [eapply F2_impl; [|exact B]; intros; apply sim_obj_grown; assumption|]. constructor; [|constructor].
      assert (N : forall i x, nth_error [AVec (point 0 0 0); AVec (vector 0 0 1); AVec (point 0 0 0); AVec (vector 0 0 1); AMat mid; AMat mid] i = Some x ->
        nth_error (rh_mem rh ++ [AVec (point 0 0 0); AVec (vector 0 0 1); AVec (point 0 0 0); AVec (vector 0 0 1); AMat mid; AMat mid]) (i + length (rh_mem rh)) = Some x).
      { intros i x X. rewrite nth_error_app2 by lia. replace (i + length (rh_mem rh) - length (rh_mem rh))%nat with i by lia. exact X. }
      constructor; cbn [r_id r_kind r_watch r_box r_nscale r_world r_obj r_obj_origin r_obj_dir r_origin r_dir o_id o_kind o_watch o_box o_nscale o_world o_obj o_origin o_dir].
      + exact A.
      + reflexivity.
      + rewrite LO. reflexivity.
      + reflexivity.
      + reflexivity.
      + apply (N 4%nat). reflexivity.
      + apply (N 5%nat). reflexivity.
      + apply (N 0%nat). reflexivity.
      + apply (N 1%nat). reflexivity.
      + exists (point 0 0 0). split; [apply (N 2%nat); reflexivity|reflexivity].
      + exists (vector 0 0 1). split; [apply (N 3%nat); reflexivity|reflexivity].
    - exists (ex ++ [AVec (point 0 0 0); AVec (vector 0 0 1); AVec (point 0 0 0); AVec (vector 0 0 1); AMat mid; AMat mid]). rewrite C, app_assoc. reflexivity.
    - exact D.
    - intros o a I J N. apply in_app_or in I as [I|[<-|[]]]; [exact (E o a I J N)|]. apply D in J. unfold private in N. cbn in N. lia.
    - intros o o' a I I' N N'. apply in_app_or in I as [I|[<-|[]]]; apply in_app_or in I' as [I'|[<-|[]]].
      + exact (F o o' a I I' N N').
      + specialize (U o a I (or_introl N)). unfold place in N'. cbn in N'. lia.
      + specialize (U o' a I' (or_intror N')). unfold private in N. cbn in N. lia.
      + unfold private in N. unfold place in N'. cbn in N, N'. lia.
  Qed.
  Lemma locs_sim : forall rh h ms, Sim rh h -> rvalid_locs rh ms = valid_locs h ms.
  Proof. intros rh h ms S. unfold rvalid_locs, valid_locs. rewrite (sim_len _ _ _ _ _ S). reflexivity. Qed.
  Lemma depth_sim : forall rh h, Sim rh h -> rdepth rh = depth h.
  Proof. intros rh h S. unfold rdepth, depth. rewrite (sim_len _ _ _ _ _ S). reflexivity. Qed.
  Lemma surface_sim : forall p m rh h, Sim rh h -> SimR (rnew_surface p m rh) (new_surface p m h).
  Proof.
    intros p m rh h S. unfold rnew_surface, new_surface, fresh. destruct (prim_init p).
    - rewrite (sim_len _ _ _ _ _ S). cbn [sim_res]. apply sim_upd_same; [apply sim_upd_same; [apply alloc_sim; exact S| |intro; cbn; auto 10]| |intro; cbn; auto 10].
      + intros o' w' _ _ [A1 A2 A3 A4 A5 A6 A7 A8 A9 A10 A11]. constructor; auto.
      + intros o' w' _ _ [A1 A2 A3 A4 A5 A6 A7 A8 A9 A10 A11]. constructor; cbn; auto. rewrite A3. reflexivity.
    - split; [reflexivity|]. destruct S as [A B C D E F]. constructor; cbn; auto.
  Qed.
  Lemma csg_sim : forall op lc rc rh h, Sim rh h -> SimR (rnew_csg asort op lc rc rh) (new_csg asort op lc rc h).
  Proof.
    intros op lc rc rh h S. unfold rnew_csg, new_csg, fresh. rewrite (locs_sim _ _ _ S). destruct (valid_locs h [lc; rc]); cbn [negb]; [|split; auto].
    rewrite (sim_len _ _ _ _ _ S). cbv zeta. apply bind_sim.
    - apply attach_sim. apply sim_upd_same; [apply alloc_sim; exact S| |intro; cbn; auto 10].
      intros o' w' _ _ [A1 A2 A3 A4 A5 A6 A7 A8 A9 A10 A11]. constructor; cbn; auto. rewrite A3. reflexivity.
    - intros rh3 h3 S3. apply bind_sim; [apply attach_sim; exact S3|]. intros rh4 h4 S4. apply bind_sim.
      + destruct op; try exact S4. rewrite (depth_sim _ _ S4). apply normals_sim. exact S4.
      + intros rh5 h5 S5. apply handler_sim. exact S5.
  Qed.
  Lemma group_sim : forall g ms rh h, Sim rh h -> SimR (rgroup_set g ms rh) (group_set g ms h).
  Proof.
    intros g ms rh h S. unfold rgroup_set, group_set. destruct (rget rh g) as [o|] eqn:G; [|rewrite (sim_none _ _ _ _ _ _ S G); split; auto].
    destruct (sim_get _ _ _ _ _ _ _ S G) as (w & GW & O). rewrite GW, (so_kind _ _ _ _ O), (locs_sim _ _ _ S).
    destruct (o_kind w); try (split; auto; fail). destruct (valid_locs h ms); [|split; auto]. cbn. apply sim_upd_same; [exact S| |intro; cbn; auto 10].
    intros o' w' _ _ [A1 A2 A3 A4 A5 A6 A7 A8 A9 A10 A11]. constructor; auto.
  Qed.
End Sorting.

(** A result that started from a larger memory *)
Lemma sim_from : forall st held M x rh h, sim st held (M ++ x) rh h -> (forall a, In a held -> (a < length M)%nat) -> sim st held M rh h.
Proof. intros st held M x rh h [A B (ex & C) D E F] L. constructor; auto. exists (x ++ ex). rewrite C, app_assoc. reflexivity. Qed.
Lemma sim_res_from : forall st held M x r r', sim_res st held (M ++ x) r r' -> (forall a, In a held -> (a < length M)%nat) -> sim_res st held M r r'.
Proof. intros st held M x [rh|e rh|] [h|e' h|] S L; cbn in *; try tauto; [eapply sim_from; eauto|destruct S; split; auto; eapply sim_from; eauto]. Qed.

(** Taking the present memory as the base *)
Lemma sim_here : forall st held M rh h, sim st held M rh h -> sim st held (rh_mem rh) rh h.
Proof.
  intros st held M rh h S. pose proof (grown_len _ _ _ _ _ S) as L. destruct S as [A B C D E F]. constructor; auto.
  - exists []. rewrite app_nil_r. reflexivity.
  - intros a I. apply D in I. lia.
Qed.
Lemma call_sim : forall asort st held c rh h, sim st held (rh_mem rh) rh h -> sim_res st held (rh_mem rh) (rrun_call asort c rh) (run_call asort c h).
Proof.
  intros asort st held c rh h S. destruct c as [|p m|ms|g ms|op l r|l o|l|l]; cbn [rrun_call run_call].
  - apply alloc_sim. exact S.
  - apply surface_sim. exact S.
  - unfold rnew_group, new_group. rewrite (locs_sim _ _ _ _ _ _ S). destruct (valid_locs h ms); [apply alloc_sim; exact S|split; auto].
  - apply group_sim. exact S.
  - apply csg_sim. exact S.
  - unfold rapply_motion, apply_motion. destruct (motion_matrix o) as [t|]; [|split; auto]. rewrite (depth_sim _ _ _ _ _ S).
    apply sim_res_from with (x := [AMat t]); [|exact (si_held _ _ _ _ _ S)]. change (rh_mem rh ++ [AMat t]) with (rh_mem (new_arr (AMat t) rh)).
    apply transform_sim; [apply sim_here with (M := rh_mem rh); apply sim_new; exact S|apply nth_new].
  - rewrite (depth_sim _ _ _ _ _ S). apply normals_sim. exact S.
  - rewrite (depth_sim _ _ _ _ _ S). apply normals_sim. exact S.
Qed.
