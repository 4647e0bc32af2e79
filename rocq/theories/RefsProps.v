(** * RefsProps: programs that hold arrays *)
From Coq Require Import Reals List Bool ZArith Lia Lra.
Import ListNotations.
From Verif Require Import XR Arr Lin Prim Csg Surf World WorldFacts Refs SpecRefs RefsFacts.
Open Scope R_scope.

Definition held_ok (st : bool) (mem : list array) (a : addr) (y : array) : Prop :=
  match nth_error mem a, y with
  | Some (AMat m), AMat m' => m = m'
  | Some (AVec v), AVec u => st = true -> v = u
  | _, _ => False
  end.
Record inv (st : bool) (s : rstate) (c : cstate) : Prop := Inv {
  in_sim : sim st (rs_held s) (rh_mem (rs_heap s)) (rs_heap s) (cs_heap c);
  in_held : Forall2 (held_ok st (rh_mem (rs_heap s))) (rs_held s) (cs_held c);
  in_alone : forall i j a m, nth_error (rs_held s) i = Some a -> nth_error (rs_held s) j = Some a ->
    nth_error (rh_mem (rs_heap s)) a = Some (AMat m) -> i = j
}.
Definition is_vec (y : array) : bool := match y with AVec _ => true | AMat _ => false end.

Lemma held_lt : forall st s c, inv st s c -> forall a, In a (rs_held s) -> (a < length (rh_mem (rs_heap s)))%nat.
Proof. intros st s c [A _ _]. exact (si_held _ _ _ _ _ A). Qed.
Lemma held_grown : forall st mem ex a y, held_ok st mem a y -> held_ok st (mem ++ ex) a y.
Proof.
  intros st mem ex a y H. unfold held_ok in *. destruct (nth_error mem a) as [x|] eqn:E; [|contradiction].
  rewrite (nth_grown _ _ _ _ E). exact H.
Qed.
(** The library ran *)
Lemma inv_after : forall st s c rh h, inv st s c -> sim st (rs_held s) (rh_mem (rs_heap s)) rh h -> inv st (RState rh (rs_held s)) (CState h (cs_held c)).
Proof.
  intros st s c rh h [A B C] S. destruct (si_grown _ _ _ _ _ S) as (ex & E). constructor; cbn [rs_heap rs_held cs_heap cs_held].
  - eapply sim_here. exact S.
  - rewrite E. eapply F2_impl; [|exact B]. intros. apply held_grown. assumption.
  - intros i j a m I J N. rewrite E in N. rewrite nth_error_app1 in N by (apply (si_held _ _ _ _ _ A), (nth_error_In _ _ I)). eauto.
Qed.
(** The caller got a new array *)
Lemma inv_new : forall st s c x, inv st s c -> (is_vec x = false) ->
  inv st (RState (new_arr x (rs_heap s)) (rs_held s ++ [length (rh_mem (rs_heap s))])) (CState (cs_heap c) (cs_held c ++ [x])).
Proof.
  intros st s c x H V. pose proof (held_lt _ _ _ H) as L. destruct H as [A B C]. constructor; cbn [rs_heap rs_held cs_heap cs_held].
  - pose proof (sim_here _ _ _ _ _ (sim_new _ _ _ _ _ x A)) as [A1 A2 A3 A4 A5 A6]. constructor; auto.
    + intros a I. apply in_app_or in I as [I|[<-|[]]]; [auto|]. cbn. rewrite app_length; cbn; lia.
    + intros o a O I. apply in_app_or in I as [I|[<-|[]]]; [auto|]. cbn [new_arr rh_objs] in O. apply In_nth_error in O as [l O].
      destruct (F2_some _ _ _ (si_objs _ _ _ _ _ A) l o O) as (w & _ & W). destruct W as [_ _ _ _ _ W6 W7 W8 W9 _ _].
      intros [Q|[Q|[Q|Q]]]; rewrite <- Q in *; match goal with N : nth_error (rh_mem (rs_heap s)) (length (rh_mem (rs_heap s))) = Some _ |- _ =>
        assert (length (rh_mem (rs_heap s)) < length (rh_mem (rs_heap s)))%nat by (apply nth_error_Some; congruence); lia end.
  - apply Forall2_app; [eapply F2_impl; [|exact B]; intros; apply held_grown; assumption|]. constructor; [|constructor].
    unfold held_ok. rewrite nth_new. destruct x; [reflexivity|discriminate].
  - assert (N0 : forall i, nth_error (rs_held s ++ [length (rh_mem (rs_heap s))]) i = Some (length (rh_mem (rs_heap s))) -> i = length (rs_held s)).
    { intros i I. destruct (Nat.lt_ge_cases i (length (rs_held s))) as [Q|Q].
      - rewrite nth_error_app1 in I by exact Q. apply nth_error_In, L in I. lia.
      - assert (i < length (rs_held s ++ [length (rh_mem (rs_heap s))]))%nat by (apply nth_error_Some; congruence). rewrite app_length in *. cbn in *. lia. }
    intros i j a m I J N. destruct (Nat.eq_dec a (length (rh_mem (rs_heap s)))) as [->|NA]; [rewrite (N0 i I), (N0 j J); reflexivity|].
    assert (Old : forall i, nth_error (rs_held s ++ [length (rh_mem (rs_heap s))]) i = Some a -> nth_error (rs_held s) i = Some a).
    { intros k K. destruct (Nat.lt_ge_cases k (length (rs_held s))) as [Q|Q]; [rewrite nth_error_app1 in K by exact Q; exact K|].
      rewrite nth_error_app2 in K by exact Q. destruct (k - length (rs_held s))%nat as [|q]; [injection K as <-; congruence|destruct q; discriminate]. }
    apply Old in I. apply Old in J. cbn [new_arr rh_mem] in N. rewrite nth_error_app1 in N by (apply L, (nth_error_In _ _ I)). eauto.
Qed.
(** The caller got one of the object's own vectors *)
Lemma inv_place : forall st s c a v u, inv st s c -> nth_error (rh_mem (rs_heap s)) a = Some (AVec v) -> (st = true -> v = u) ->
  (forall o, In o (rh_objs (rs_heap s)) -> ~ private o a) ->
  inv st (RState (rs_heap s) (rs_held s ++ [a])) (CState (cs_heap c) (cs_held c ++ [AVec u])).
Proof.
  intros st s c a v u [A B C] N E P. constructor; cbn [rs_heap rs_held cs_heap cs_held].
  - destruct A as [A1 A2 A3 A4 A5 A6]. constructor; auto.
    + intros b I. apply in_app_or in I as [I|[<-|[]]]; [auto|]. apply nth_error_Some. congruence.
    + intros o b O I. apply in_app_or in I as [I|[<-|[]]]; [auto|]. apply P. exact O.
  - apply Forall2_app; [exact B|]. constructor; [|constructor]. unfold held_ok. rewrite N. exact E.
  - assert (Old : forall i b m, nth_error (rh_mem (rs_heap s)) b = Some (AMat m) -> nth_error (rs_held s ++ [a]) i = Some b -> nth_error (rs_held s) i = Some b).
    { intros k b m NB K. destruct (Nat.lt_ge_cases k (length (rs_held s))) as [Q|Q]; [rewrite nth_error_app1 in K by exact Q; exact K|].
      rewrite nth_error_app2 in K by exact Q. destruct (k - length (rs_held s))%nat as [|q]; [injection K as <-; congruence|destruct q; discriminate]. }
    intros i j b m I J NB. apply (Old _ _ _ NB) in I. apply (Old _ _ _ NB) in J. eauto.
Qed.

(** The caller wrote *)
Lemma nth_write : forall (mem : list array) a f g b, nth_error (list_upd mem a (change f g)) b = if Nat.eqb a b then option_map (change f g) (nth_error mem b) else nth_error mem b.
Proof. intros. apply nth_upd. Qed.
Lemma F2_upd_other : forall {A B : Type} (P Q : A -> B -> Prop) l1 l2 k g, Forall2 P l1 l2 ->
  (forall i x y, nth_error l1 i = Some x -> nth_error l2 i = Some y -> P x y -> Q x (if Nat.eqb k i then g y else y)) -> Forall2 Q l1 (list_upd l2 k g).
Proof.
  intros A B P Q l1 l2 k g F. revert k. induction F as [|x y l1 l2 H F IH]; intros [|k] K; cbn; constructor.
  - apply (K 0%nat x y); auto.
  - clear IH. assert (K' : forall i x y, nth_error l1 i = Some x -> nth_error l2 i = Some y -> P x y -> Q x y) by (intros i a b I J; exact (K (S i) a b I J)).
    clear K H. induction F as [|u v m1 m2 H F IH]; constructor; [apply (K' 0%nat u v); auto|]. apply IH. intros i; apply (K' (S i)).
  - apply (K 0%nat x y); auto.
  - apply IH. intros i a b I J. exact (K (S i) a b I J).
Qed.
Lemma inv_write : forall st s c k a f g, inv st s c -> nth_error (rs_held s) k = Some a ->
  (st = true -> forall y, nth_error (cs_held c) k = Some y -> is_vec y = false) ->
  inv st (RState (RHeap (rh_next (rs_heap s)) (list_upd (rh_mem (rs_heap s)) a (change f g)) (rh_objs (rs_heap s))) (rs_held s))
    (CState (cs_heap c) (list_upd (cs_held c) k (change f g))).
Proof.
  intros st s c k a f g [A B C] N W. set (mem := rh_mem (rs_heap s)) in *.
  destruct (F2_some _ _ _ B k a N) as (y & Y & HY). constructor; cbn [rs_heap rs_held cs_heap cs_held rh_mem rh_next rh_objs].
  - destruct A as [A1 A2 A3 A4 A5 A6]. constructor; cbn [rh_mem rh_next rh_objs]; auto.
    + assert (PV : forall o, In o (rh_objs (rs_heap s)) -> ~ private o a) by (intros o I; apply A5; [exact I|exact (nth_error_In _ _ N)]).
      assert (KV : forall b v, nth_error mem b = Some (AVec v) -> a = b -> st = false).
      { intros b v E ->. destruct st; [|reflexivity]. specialize (W eq_refl y Y). unfold held_ok in HY. fold mem in HY. rewrite E in HY. destruct y; [contradiction|discriminate]. }
      fold mem in A2. revert A2 PV. generalize (rh_objs (rs_heap s)) (h_objs (cs_heap c)). intros ro wo F PV. induction F as [|o w ro wo H F IH]; constructor.
      * assert (P := PV o (or_introl eq_refl)). destruct H as [B1 B2 B3 B4 B5 B6 B7 B8 B9 (v & B10 & B10') (u & B11 & B11')].
        assert (O : forall b, private o b -> nth_error (list_upd mem a (change f g)) b = nth_error mem b).
        { intros b PB. rewrite nth_write. destruct (Nat.eqb_spec a b) as [->|_]; [contradiction|reflexivity]. }
        constructor; auto; try (rewrite O by (unfold private; auto); assumption).
        -- rewrite nth_write. destruct (Nat.eqb_spec a (r_origin o)) as [E|_]; [|exists v; auto].
           exists (g v). rewrite B10. split; [reflexivity|]. rewrite (KV _ _ B10 E). discriminate.
        -- rewrite nth_write. destruct (Nat.eqb_spec a (r_dir o)) as [E|_]; [|exists u; auto].
           exists (g u). rewrite B11. split; [reflexivity|]. rewrite (KV _ _ B11 E). discriminate.
      * apply IH. intros o' I. apply PV. right. exact I.
    + exists []. rewrite app_nil_r. reflexivity.
    + intros b I. rewrite len_upd. apply A4. exact I.
  - eapply F2_upd_other; [exact B|]. intros i b z I Z H. unfold held_ok in *. fold mem in H. rewrite nth_write. destruct (Nat.eqb_spec a b) as [<-|NB].
    + destruct (nth_error mem a) as [[m|v]|] eqn:E; [| |contradiction]; cbn [option_map change].
      * rewrite (C i k a m I N E), Nat.eqb_refl. destruct z; [cbn; congruence|contradiction].
      * destruct z as [m|u]; [contradiction|]. destruct st.
        -- specialize (W eq_refl y Y).  destruct y; [contradiction|discriminate].
        -- destruct (Nat.eqb k i); cbn; discriminate.
    + destruct (Nat.eqb_spec k i) as [->|_]; [congruence|exact H].
  - intros i j b m I J NB. rewrite nth_write in NB. destruct (Nat.eqb_spec a b) as [<-|_]; [|eauto].
    destruct (nth_error mem a) as [[m'|v]|] eqn:E; try discriminate. exact (C i j a m' I J E).
Qed.

Definition agree_step (st : bool) (c0 : cstate) (x : astmt) (a : option (rstate * option exn)) (b : option (cstate * option exn)) : Prop :=
  match a, b with
  | None, None => True
  | Some (s, e), Some (c, e') => e = e' /\ inv st s c /\ map is_vec (cs_held c) = map is_vec (cs_held c0) ++ from_places [x]
  | _, _ => False
  end.
Lemma map_upd_vec : forall ys k f g, map is_vec (list_upd ys k (change f g)) = map is_vec ys.
Proof. induction ys as [|y ys IH]; intros [|k] f g; cbn; [reflexivity..|destruct y; reflexivity|rewrite IH; reflexivity]. Qed.
Lemma step_inv : forall asort st x s c, inv st s c ->
  (st = true -> forall k f g y, x = Write k f g -> nth_error (cs_held c) k = Some y -> is_vec y = false) ->
  agree_step st c x (rstep asort x s) (cstep asort x c).
Proof.
  intros asort st x s c H W. pose proof (in_sim _ _ _ H) as S.
  assert (After : forall r r', sim_res st (rs_held s) (rh_mem (rs_heap s)) r r' -> from_places [x] = [] ->
    agree_step st c x (match r with ROk h => Some (RState h (rs_held s), None) | RRaise e h => Some (RState h (rs_held s), Some e) | RDiverge => None end)
      (match r' with Ok h => Some (CState h (cs_held c), None) | Raise e h => Some (CState h (cs_held c), Some e) | Diverge => None end)).
  { intros r r' R F. destruct r as [rh|e rh|], r' as [h|e' h|]; cbn in R; try contradiction; cbn [agree_step]; auto.
    - rewrite F, app_nil_r. split; [reflexivity|]. split; [|reflexivity]. apply inv_after; assumption.
    - destruct R as [-> R]. rewrite F, app_nil_r. split; [reflexivity|]. split; [|reflexivity]. apply inv_after; assumption. }
  destruct x as [d|l|l|l|l|m|k f g|l k]; cbn [rstep cstep].
  - apply After; [apply call_sim; exact S|reflexivity].
  - destruct (rget (rs_heap s) l) as [o|] eqn:G; [|rewrite (sim_none _ _ _ _ _ _ S G); exact I].
    destruct (sim_get _ _ _ _ _ _ _ S G) as (w & -> & O). rewrite (mat_in_some _ _ _ (so_world _ _ _ _ O)). cbn [agree_step].
    split; [reflexivity|]. split; [apply inv_new; auto|]. cbn. rewrite map_app. reflexivity.
  - destruct (rget (rs_heap s) l) as [o|] eqn:G; [|rewrite (sim_none _ _ _ _ _ _ S G); exact I].
    destruct (sim_get _ _ _ _ _ _ _ S G) as (w & -> & O). rewrite (mat_in_some _ _ _ (so_obj _ _ _ _ O)). cbn [agree_step].
    split; [reflexivity|]. split; [apply inv_new; auto|]. cbn. rewrite map_app. reflexivity.
  - destruct (rget (rs_heap s) l) as [o|] eqn:G; [|rewrite (sim_none _ _ _ _ _ _ S G); exact I].
    destruct (sim_get _ _ _ _ _ _ _ S G) as (w & -> & O). cbn [agree_step]. destruct (so_origin _ _ _ _ O) as (v & V & E).
    split; [reflexivity|]. split; [|cbn; rewrite map_app; reflexivity]. eapply inv_place; eauto.
    intros o' I P. exact (si_apart _ _ _ _ _ S o' o _ I (nth_error_In _ _ G) P (or_introl eq_refl)).
  - destruct (rget (rs_heap s) l) as [o|] eqn:G; [|rewrite (sim_none _ _ _ _ _ _ S G); exact I].
    destruct (sim_get _ _ _ _ _ _ _ S G) as (w & -> & O). cbn [agree_step]. destruct (so_dir _ _ _ _ O) as (v & V & E).
    split; [reflexivity|]. split; [|cbn; rewrite map_app; reflexivity]. eapply inv_place; eauto.
    intros o' I P. exact (si_apart _ _ _ _ _ S o' o _ I (nth_error_In _ _ G) P (or_intror eq_refl)).
  - cbn [agree_step]. split; [reflexivity|]. split; [apply inv_new; auto|]. cbn. rewrite map_app. reflexivity.
  - destruct (nth_error (rs_held s) k) as [a|] eqn:N.
    + destruct (F2_some _ _ _ (in_held _ _ _ H) k a N) as (y & Y & _). rewrite Y. cbn [agree_step].
      split; [reflexivity|]. split; [|cbn; rewrite map_upd_vec, app_nil_r; reflexivity]. apply inv_write; auto. intros T z Z. exact (W T k f g z eq_refl Z).
    + rewrite (proj1 (F2_none _ _ _ (in_held _ _ _ H) k) N). exact I.
  - destruct (nth_error (rs_held s) k) as [a|] eqn:N.
    + destruct (F2_some _ _ _ (in_held _ _ _ H) k a N) as (y & Y & HY). rewrite Y. unfold held_ok in HY. unfold mat_in at 1.
      destruct (nth_error (rh_mem (rs_heap s)) a) as [[m|v]|] eqn:E; [| |contradiction]; destruct y as [m'|u]; try contradiction; [|exact I].
      subst m'. apply After; [|reflexivity]. cbn [run_call]. unfold apply_motion. cbn [motion_matrix]. rewrite (depth_sim _ _ _ _ _ S).
      apply transform_sim; assumption.
    + rewrite (proj1 (F2_none _ _ _ (in_held _ _ _ H) k) N). exact I.
Qed.

Definition agree_run (st : bool) (a : option (rstate * list (option exn))) (b : option (cstate * list (option exn))) : Prop :=
  match a, b with
  | None, None => True
  | Some (s, e), Some (c, e') => e = e' /\ inv st s c
  | _, _ => False
  end.
Lemma from_places_cons : forall x cs, from_places (x :: cs) = from_places [x] ++ from_places cs.
Proof. intros [] cs; reflexivity. Qed.
Lemma run_inv : forall asort st cs s c, inv st s c ->
  (st = true -> forall k f g, In (Write k f g) cs -> nth_error (map is_vec (cs_held c) ++ from_places cs) k = Some false) ->
  agree_run st (rrun asort cs s) (crun asort cs c).
Proof.
  intros asort st. induction cs as [|x cs IH]; intros s c H W; cbn [rrun crun]; [split; auto|].
  assert (A : agree_step st c x (rstep asort x s) (cstep asort x c)).
  { apply step_inv; [exact H|]. intros T k f g y -> Y. specialize (W T k f g (or_introl eq_refl)).
    rewrite nth_error_app1 in W by (rewrite map_length; apply nth_error_Some; congruence). rewrite nth_error_map, Y in W. cbn in W. congruence. }
  destruct (rstep asort x s) as [[s' e]|], (cstep asort x c) as [[c' e']|]; cbn [agree_step] in A; try contradiction; [|exact I].
  destruct A as (-> & H' & V). assert (B : agree_run st (rrun asort cs s') (crun asort cs c')).
  { apply IH; [exact H'|]. intros T k f g I. specialize (W T k f g (or_intror I)). rewrite V, <- app_assoc, <- from_places_cons. exact W. }
  destruct (rrun asort cs s') as [[s2 es]|], (crun asort cs c') as [[c2 es']|]; cbn [agree_run] in *; try contradiction; [|exact I].
  destruct B as (-> & B). split; auto.
Qed.
Lemma start_inv : forall st, inv st rstart cstart.
Proof.
  intro st. constructor; cbn.
  - constructor; cbn; auto; try contradiction. exists []. reflexivity.
  - constructor.
  - intros [|i]; discriminate.
Qed.

(** ** What can be seen *)
Lemma shape_sim : forall st held M rh h, sim st held M rh h -> forall n l, rshape_fuel n rh l = shape_fuel n h l.
Proof.
  intros st held M rh h S. induction n as [|n IH]; intro l; cbn [rshape_fuel shape_fuel]; [reflexivity|].
  destruct (rget rh l) as [o|] eqn:G; [|rewrite (sim_none _ _ _ _ _ _ S G); reflexivity].
  destruct (sim_get _ _ _ _ _ _ _ S G) as (w & -> & O). rewrite (so_kind _ _ _ _ O).
  destruct (o_kind w); [reflexivity| | |reflexivity].
  - rewrite (mat_in_some _ _ _ (so_world _ _ _ _ O)), (mat_in_some _ _ _ (so_obj _ _ _ _ O)), (so_id _ _ _ _ O), (so_nscale _ _ _ _ O), (so_box _ _ _ _ O). reflexivity.
  - rewrite !IH, (so_id _ _ _ _ O), (so_box _ _ _ _ O). reflexivity.
Qed.
Lemma inv_objects : forall st s c, inv st s c -> objects_agree s c.
Proof.
  intros st s c [S _ _] l. unfold id_now, kind_now, world_now, object_now, rshape_of, shape_of. rewrite (shape_sim _ _ _ _ _ S), (depth_sim _ _ _ _ _ S).
  destruct (rget (rs_heap s) l) as [o|] eqn:G; [|rewrite (sim_none _ _ _ _ _ _ S G); auto].
  destruct (sim_get _ _ _ _ _ _ _ S G) as (w & -> & O). cbn [option_map].
  rewrite (mat_in_some _ _ _ (so_world _ _ _ _ O)), (mat_in_some _ _ _ (so_obj _ _ _ _ O)), (so_id _ _ _ _ O), (so_kind _ _ _ _ O). auto.
Qed.
Lemma inv_places : forall s c, inv true s c -> places_agree s c.
Proof.
  intros s c [S _ _] l. unfold position_now, orientation_now.
  destruct (rget (rs_heap s) l) as [o|] eqn:G; [|rewrite (sim_none _ _ _ _ _ _ S G); auto].
  destruct (sim_get _ _ _ _ _ _ _ S G) as (w & -> & O). cbn [option_map].
  destruct (so_origin _ _ _ _ O) as (v & V & E), (so_dir _ _ _ _ O) as (u & U & F). rewrite (vec_in_some _ _ _ V), (vec_in_some _ _ _ U), E, F by reflexivity. auto.
Qed.
Lemma inv_matrices : forall st s c, inv st s c -> matrices_agree s c.
Proof.
  intros st s c [_ H _]. split; [exact (F2_length _ _ _ H)|]. intros k m. unfold holds. destruct (nth_error (rs_held s) k) as [a|] eqn:N.
  - destruct (F2_some _ _ _ H k a N) as (y & -> & Y). unfold held_ok in Y. destruct (nth_error (rh_mem (rs_heap s)) a) as [[x|v]|], y as [z|u]; try contradiction.
    + subst z. tauto.
    + split; discriminate.
  - rewrite (proj1 (F2_none _ _ _ H k) N). split; discriminate.
Qed.
Lemma inv_arrays : forall s c, inv true s c -> arrays_agree s c.
Proof.
  intros s c [_ H _] k. unfold holds. destruct (nth_error (rs_held s) k) as [a|] eqn:N.
  - destruct (F2_some _ _ _ H k a N) as (y & -> & Y). unfold held_ok in Y. destruct (nth_error (rh_mem (rs_heap s)) a) as [[x|v]|], y as [z|u]; try contradiction.
    + subst z. reflexivity.
    + rewrite Y by reflexivity. reflexivity.
  - symmetry. exact (proj1 (F2_none _ _ _ H k) N).
Qed.

(** ** A movement puts a place right *)
Definition watched (h : heap) : Prop := forall x o, get h x = Some o -> In (HMat x) (o_watch o).
Lemma watched_exts : forall h h', exts h h' -> watched h -> watched h'.
Proof. intros h h' E W x o' G. destruct (hrel_get_back _ _ _ _ _ E G) as (o & G1 & K). destruct K as (_ & _ & _ & _ & (w & ->) & _). apply in_app_iff. left. auto. Qed.
Lemma watched_sks : forall h h', sks h h' -> watched h -> watched h'.
Proof. intros h h' E W x o' G. destruct (hrel_get_back _ _ _ _ _ E G) as (o & G1 & K). destruct K as (_ & _ & -> & _). auto. Qed.
Lemma watched_alloc : forall k h, watched h -> watched (alloc k h).
Proof. intros k h W x o G. apply get_alloc in G as [G|(-> & ->)]; [auto|left; reflexivity]. Qed.
Lemma watched_upd : forall h l f, watched h -> (forall o, incl (o_watch o) (o_watch (f o))) -> watched (upd h l f).
Proof. intros h l f W F x o G. rewrite get_upd in G. destruct (Nat.eqb x l); [destruct (get h x) as [o0|] eqn:G0; [|discriminate]; injection G as <-; apply F; auto|auto]. Qed.
Lemma watched_call : forall asort c h h', watched h -> res_heap (run_call asort c h) = Some h' -> watched h'.
Proof.
  intros asort c h h' W H. destruct c as [|p m|ms|g ms|op a b|l o|l|l]; cbn [run_call] in H.
  - injection H as <-. apply watched_alloc. exact W.
  - unfold new_surface in H. destruct (prim_init p); injection H as <-; [|exact W].
    apply watched_upd; [apply watched_upd; [apply watched_alloc; exact W|intro; apply incl_refl]|]. intros o y Y. cbn. apply in_app_iff. auto.
  - unfold new_group in H. destruct (valid_locs h ms); injection H as <-; [apply watched_alloc|]; exact W.
  - unfold group_set in H. destruct (get h g) as [o|]; [|injection H as <-; exact W]. destruct (o_kind o); try (injection H as <-; exact W).
    destruct (valid_locs h ms); injection H as <-; [|exact W]. apply watched_upd; [exact W|intro; apply incl_refl].
  - destruct (new_csg_exts _ _ _ _ _ _ H) as [->|X]; [exact W|]. eapply watched_exts; [exact X|].
    apply watched_upd; [apply watched_alloc; exact W|]. intros o y Y. cbn. apply in_app_iff. auto.
  - unfold apply_motion in H. destruct (motion_matrix o); [|injection H as <-; exact W]. apply transform_sks in H. eapply watched_sks; eauto.
  - apply set_normals_exts in H. eapply watched_exts; eauto.
  - apply set_normals_exts in H. eapply watched_exts; eauto.
Qed.
Lemma watched_step : forall asort x c c' e, watched (cs_heap c) -> cstep asort x c = Some (c', e) -> watched (cs_heap c').
Proof.
  intros asort x c c' e W E. assert (R : forall d r, run_call asort d (cs_heap c) = r ->
    match r with Ok h => Some (CState h (cs_held c), None) | Raise e h => Some (CState h (cs_held c), Some e) | Diverge => None end = Some (c', e) -> watched (cs_heap c')).
  { intros d r <- K. destruct (run_call asort d (cs_heap c)) as [h|e' h|] eqn:D; try discriminate; injection K as <- _; (eapply watched_call; [exact W|]); rewrite D; reflexivity. }
  destruct x as [d|l|l|l|l|m|k f g|l k]; cbn [cstep] in E.
  - eapply R; [reflexivity|exact E].
  - destruct (get (cs_heap c) l); [|discriminate]. injection E as <- _. exact W.
  - destruct (get (cs_heap c) l); [|discriminate]. injection E as <- _. exact W.
  - destruct (get (cs_heap c) l); [|discriminate]. injection E as <- _. exact W.
  - destruct (get (cs_heap c) l); [|discriminate]. injection E as <- _. exact W.
  - injection E as <- _. exact W.
  - destruct (nth_error (cs_held c) k); [|discriminate]. injection E as <- _. exact W.
  - destruct (nth_error (cs_held c) k) as [[m|v]|]; try discriminate. eapply R; [reflexivity|exact E].
Qed.
Lemma watched_run : forall asort cs c c' es, watched (cs_heap c) -> crun asort cs c = Some (c', es) -> watched (cs_heap c').
Proof.
  intros asort. induction cs as [|x cs IH]; intros c c' es W E; cbn [crun] in E; [injection E as <- _; exact W|].
  destruct (cstep asort x c) as [[c1 e]|] eqn:S1; [|discriminate]. destruct (crun asort cs c1) as [[c2 es2]|] eqn:R; [|discriminate]. injection E as <- _.
  eapply IH; [|exact R]. eapply watched_step; eauto.
Qed.
Definition right_here (rh : rheap) (x : loc) : Prop :=
  exists o m, rget rh x = Some o /\ mat_in rh (r_world o) = Some m /\ vec_in rh (r_origin o) = Some (mapply m obj_origin) /\
    vec_in rh (r_dir o) = Some (vscale (/ vnorm (mapply m obj_direction)) (mapply m obj_direction)).
Lemma mat_in_grown : forall rh rh' ex a m, rh_mem rh' = rh_mem rh ++ ex -> mat_in rh a = Some m -> mat_in rh' a = Some m.
Proof. intros rh rh' ex a m E H. unfold mat_in in *. rewrite E. destruct (nth_error (rh_mem rh) a) as [y|] eqn:N; [|discriminate]. rewrite (nth_grown _ _ _ _ N). exact H. Qed.
Lemma vec_in_grown : forall rh rh' ex a m, rh_mem rh' = rh_mem rh ++ ex -> vec_in rh a = Some m -> vec_in rh' a = Some m.
Proof. intros rh rh' ex a m E H. unfold vec_in in *. rewrite E. destruct (nth_error (rh_mem rh) a) as [y|] eqn:N; [|discriminate]. rewrite (nth_grown _ _ _ _ N). exact H. Qed.
Lemma right_kept : forall rh rh' ex x f, right_here rh x -> rh_mem rh' = rh_mem rh ++ ex -> (forall o, rget rh x = Some o -> rget rh' x = Some (f o)) ->
  (forall o, r_world (f o) = r_world o /\ r_origin (f o) = r_origin o /\ r_dir (f o) = r_dir o) -> right_here rh' x.
Proof.
  intros rh rh' ex x f (o & m & G & W & P & D) E K F. destruct (F o) as (F1 & F2 & F3). exists (f o), m. rewrite F1, F2, F3.
  split; [auto|]. split; [eapply mat_in_grown; eauto|]. split; eapply vec_in_grown; eauto.
Qed.
Lemma rget_rupd : forall rh l f x, rget (rupd rh l f) x = if Nat.eqb l x then option_map f (rget rh x) else rget rh x.
Proof. intros. unfold rget, rupd; cbn. apply nth_upd. Qed.
Lemma right_rupd : forall rh l f x, right_here rh x -> (forall o, r_world (f o) = r_world o /\ r_origin (f o) = r_origin o /\ r_dir (f o) = r_dir o) -> right_here (rupd rh l f) x.
Proof.
  intros rh l f x R F. apply right_kept with (rh := rh) (ex := []) (f := fun o => if Nat.eqb l x then f o else o); auto.
  - rewrite app_nil_r. reflexivity.
  - intros o G. rewrite rget_rupd, G. destruct (Nat.eqb l x); reflexivity.
  - intro o. destruct (Nat.eqb l x); auto.
Qed.

Section Sorting.
  Variable asort : list xr -> list nat.
  Variable held : list addr.
  Variable M : list array.
  Notation Sim := (sim false held M).

  Lemma handler_right : forall w rh h rh' x, Sim rh h -> rrun_handler asort w rh = ROk rh' -> right_here rh x \/ w = HMat x /\ rget rh x <> None -> right_here rh' x.
  Proof.
    intros w rh h rh' x S E R. destruct w as [l|l|l]; cbn [rrun_handler] in E.
    - destruct (rget rh l) as [o|] eqn:G; [|discriminate]. destruct (sim_get _ _ _ _ _ _ _ S G) as (w & GW & O).
      rewrite (mat_in_some _ _ _ (so_world _ _ _ _ O)), (vec_in_some _ _ _ (so_oo _ _ _ _ O)), (vec_in_some _ _ _ (so_od _ _ _ _ O)) in E. cbv zeta in E.
      set (m := o_world w) in *. set (d := mapply m obj_direction) in *. destruct (rltb (vnorm d) dir_tolerance); [discriminate|]. destruct (minv m) as [i|]; [|discriminate].
      injection E as <-. destruct (Nat.eq_dec l x) as [->|N].
      + eexists _, m. split; [rewrite !rget_rupd, !Nat.eqb_refl; unfold rget in G |- *; cbn [rh_objs new_arr rupd]; rewrite !nth_upd, !Nat.eqb_refl, G; reflexivity|].
        cbn [option_map bind_obj bind_dir bind_origin r_world r_origin r_dir]. pose proof (so_world _ _ _ _ O) as W. fold m in W.
        unfold mat_in, vec_in. cbn [new_arr rupd rh_mem]. split; [rewrite !(nth_grown _ _ _ (AMat m)); auto; repeat apply nth_grown; exact W|].
        fold d. split.
        * rewrite <- !app_assoc. rewrite nth_error_app2, Nat.sub_diag by lia. reflexivity.
        * rewrite <- !app_assoc. rewrite nth_error_app2 by lia. replace (Datatypes.S (length (rh_mem rh)) - length (rh_mem rh))%nat with 1%nat by lia. reflexivity.
      + destruct R as [R|[R _]]; [|injection R as ->; congruence].
        eapply right_kept with (f := fun o => o); [exact R|cbn [rupd new_arr rh_mem]; rewrite <- !app_assoc; reflexivity| |auto].
        intros o' G'. unfold rget in *. cbn [rh_objs new_arr rupd]. rewrite !nth_upd. destruct (Nat.eqb_spec l x); [congruence|exact G'].
    - destruct R as [R|[R _]]; [|discriminate]. destruct (rget rh l) as [o|]; [|discriminate]. destruct (r_kind o); try discriminate.
      destruct (mat_in rh (r_world o)); [|discriminate]. injection E as <-. apply right_rupd; [exact R|]. intro; cbn; auto.
    - destruct R as [R|[R _]]; [|discriminate]. destruct (rget rh l) as [o|]; [|discriminate]. destruct (r_kind o); try discriminate.
      destruct (rbox_of rh l0); [|discriminate]. destruct (rbox_of rh r); [|discriminate]. injection E as <-. apply right_rupd; [exact R|]. intro; cbn; auto.
  Qed.
  Lemma handler_there : forall w rh rh', rrun_handler asort w rh = ROk rh' -> forall x, rget rh x <> None -> rget rh' x <> None.
  Proof.
    intros w rh rh' E x. assert (K : length (rh_objs rh) = length (rh_objs rh')).
    { destruct w as [l|l|l]; cbn [rrun_handler] in E; destruct (rget rh l) as [o|]; try discriminate.
      - destruct (mat_in rh (r_world o)) as [m|]; [|discriminate]. destruct (vec_in rh (r_obj_origin o)); [|discriminate]. destruct (vec_in rh (r_obj_dir o)) as [q|]; [|discriminate].
        cbv zeta in E. destruct (rltb (vnorm (mapply m q)) dir_tolerance); [discriminate|]. destruct (minv m); [|discriminate]. injection E as <-. cbn. rewrite !RefsFacts.len_upd. reflexivity.
      - destruct (r_kind o); try discriminate. destruct (mat_in rh (r_world o)); [|discriminate]. injection E as <-. cbn. rewrite RefsFacts.len_upd. reflexivity.
      - destruct (r_kind o); try discriminate. destruct (rbox_of rh l0); [|discriminate]. destruct (rbox_of rh r); [|discriminate]. injection E as <-. cbn. rewrite RefsFacts.len_upd. reflexivity. }
    unfold rget. rewrite !nth_error_Some, K. auto.
  Qed.
  Lemma all_right : forall ws rh h rh' x, Sim rh h -> rrun_all asort ws rh = ROk rh' -> rget rh x <> None -> right_here rh x \/ In (HMat x) ws -> right_here rh' x.
  Proof.
    induction ws as [|w ws IH]; intros rh h rh' x S E T R; cbn [rrun_all] in E.
    - injection E as <-. destruct R as [R|[]]. exact R.
    - destruct (rrun_handler asort w rh) as [r1|e r1|] eqn:E1; try discriminate. cbn [rbind] in E.
      pose proof (handler_sim asort _ _ _ w _ _ S) as H1. rewrite E1 in H1. destruct (run_handler asort w h) as [h1|e h1|]; try contradiction. cbn in H1.
      eapply IH; [exact H1|exact E|eapply handler_there; eauto|]. destruct R as [R|[->|R]]; [left|left|right; exact R]; (eapply handler_right; [exact S|exact E1|]); auto.
  Qed.
  Lemma append_right : forall l a t rh h rh' x, watched h -> Sim rh h -> nth_error M a = Some (AMat t) -> rappend_own asort l a rh = ROk rh' ->
    right_here rh x \/ x = l -> right_here rh' x.
  Proof.
    intros l a t rh h rh' x W S A E R. unfold rappend_own in E. destruct (rget rh l) as [o|] eqn:G; [|discriminate].
    destruct (sim_get _ _ _ _ _ _ _ S G) as (w & GW & O).
    assert (EA : mat_in rh a = Some t) by (apply mat_in_some; destruct (si_grown _ _ _ _ _ S) as (ex & ->); apply nth_grown; exact A). rewrite EA in E.
    rewrite (mat_in_some _ _ _ (so_world _ _ _ _ O)) in E.
    set (r1 := rupd (new_arr (AMat (mmul t (o_world w))) rh) l (bind_world (length (rh_mem rh)))) in *.
    assert (S1 : Sim r1 (upd h l (with_world (mmul t (o_world w))))).
    { eapply sim_upd; [apply sim_new; exact S|eapply clean_new; exact S| |bound..].
      intros o' w' _ _ [A1 A2 A3 A4 A5 A6 A7 A8 A9 A10 A11]. constructor; cbn [bind_world with_world r_id r_kind r_watch r_box r_nscale r_world r_obj r_obj_origin r_obj_dir r_origin r_dir o_id o_kind o_watch o_box o_nscale o_world o_obj o_origin o_dir]; auto. apply nth_new. }
    assert (T : rget r1 x <> None).
    { unfold r1. rewrite rget_rupd. change (rget (new_arr (AMat (mmul t (o_world w))) rh) x) with (rget rh x).
      destruct R as [(o' & _ & -> & _)| ->]; [destruct (Nat.eqb l x); discriminate|rewrite Nat.eqb_refl, G; discriminate]. }
    eapply all_right; [exact S1|exact E|exact T|]. destruct (Nat.eq_dec x l) as [->|N].
    - right. rewrite (so_watch _ _ _ _ O). apply W. exact GW.
    - left. destruct R as [R|R]; [|contradiction]. eapply right_kept with (f := fun o => o); [exact R|reflexivity| |auto].
      intros o' G'. unfold r1. rewrite rget_rupd. destruct (Nat.eqb_spec l x); [congruence|exact G'].
  Qed.
  Lemma transform_right : forall n l a t rh h rh' x, watched h -> Sim rh h -> nth_error M a = Some (AMat t) -> rtransform asort n l a rh = ROk rh' ->
    right_here rh x \/ x = l -> right_here rh' x.
  Proof.
    induction n as [|n IH]; intros l a t rh h rh' x W S A E R; cbn [rtransform] in E; [discriminate|].
    destruct (rget rh l) as [o|] eqn:G; [|discriminate]. destruct (rappend_own asort l a rh) as [r1|e r1|] eqn:E1; try discriminate. cbn [rbind] in E.
    pose proof (append_right l a t rh h r1 x W S A E1 R) as R1.
    pose proof (append_sim asort _ _ _ l a t _ _ S A) as H1. rewrite E1 in H1. destruct (append_own asort l t h) as [h1|e h1|] eqn:E1'; try contradiction. cbn in H1.
    assert (W1 : watched h1). { eapply watched_sks; [|exact W]. apply (append_own_sks asort l t). rewrite E1'. reflexivity. }
    clear G E1 E1' S W R. revert r1 h1 H1 W1 R1 E. induction (children (r_kind o)) as [|c cs IHc]; intros r1 h1 S1 W1 R1 E; cbn [each_part] in E; [injection E as <-; exact R1|].
    destruct (rtransform asort n c a r1) as [r2|e r2|] eqn:E2; try discriminate. cbn [rbind] in E.
    pose proof (transform_sim asort _ _ _ n c a t _ _ S1 A) as H2. rewrite E2 in H2. destruct (transform asort n c t h1) as [h2|e h2|] eqn:E2'; try contradiction. cbn in H2.
    apply (IHc r2 h2); auto.
    - eapply watched_sks; [|exact W1]. apply (transform_sks asort n c t). rewrite E2'. reflexivity.
    - eapply IH; eauto.
  Qed.
End Sorting.

(** After any program *)
Lemma motion_right : forall asort s c l o s', inv false s c -> watched (cs_heap c) -> rstep asort (Does (CMotion l o)) s = Some (s', None) -> right_here (rs_heap s') l.
Proof.
  intros asort s c l o s' [S _ _] W E. cbn [rstep rrun_call] in E. unfold rapply_motion in E. destruct (motion_matrix o) as [t|]; [|discriminate].
  destruct (rtransform asort (rdepth (rs_heap s)) l (length (rh_mem (rs_heap s))) (new_arr (AMat t) (rs_heap s))) as [r|e r|] eqn:T; try discriminate. injection E as <-.
  eapply transform_right; [exact W| |apply nth_new|exact T|right; reflexivity]. apply sim_here with (M := rh_mem (rs_heap s)). apply sim_new. exact S.
Qed.
Lemma transform_by_right : forall asort s c l k s', inv false s c -> watched (cs_heap c) -> rstep asort (TransformBy l k) s = Some (s', None) -> right_here (rs_heap s') l.
Proof.
  intros asort s c l k s' [S _ _] W E. cbn [rstep] in E. destruct (nth_error (rs_held s) k) as [a|]; [|discriminate].
  destruct (mat_in (rs_heap s) a) as [t|] eqn:A; [|discriminate]. assert (N : nth_error (rh_mem (rs_heap s)) a = Some (AMat t)).
  { unfold mat_in in A. destruct (nth_error (rh_mem (rs_heap s)) a) as [[m|v]|]; congruence. }
  destruct (rtransform asort (rdepth (rs_heap s)) l a (rs_heap s)) as [r|e r|] eqn:T; try discriminate. injection E as <-.
  eapply transform_right; [exact W|exact S|exact N|exact T|right; reflexivity].
Qed.
Lemma reached_inv : forall asort cs s es, rrun asort cs rstart = Some (s, es) -> exists c, inv false s c /\ watched (cs_heap c).
Proof.
  intros asort cs s es E. pose proof (run_inv asort false cs _ _ (start_inv false) (fun T => False_ind _ (Bool.diff_false_true T))) as A.
  rewrite E in A. destruct (crun asort cs cstart) as [[c es']|] eqn:C; [|contradiction]. destruct A as [_ A]. exists c. split; [exact A|].
  eapply watched_run; [|exact C]. intros x o G. destruct x; discriminate.
Qed.
