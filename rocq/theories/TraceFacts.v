(** * TraceFacts: the batch tracer works ray by ray *)
From Coq Require Import Reals List Bool ZArith Lia Lra Psatz.
Import ListNotations.
From Verif Require Import XR Arr Lin LinFacts Prim Csg Surf World SpecWorld SpecOptics Tracer SpecTrace XRFacts.
Open Scope R_scope.

(** ** Lists *)
Lemma combine_map_r {A B} : forall (f : A -> B) l, combine l (map f l) = map (fun x => (x, f x)) l.
Proof. induction l; simpl; congruence. Qed.
Lemma combine_map_l {A B} : forall (f : A -> B) l, combine (map f l) l = map (fun x => (f x, x)) l.
Proof. induction l; simpl; congruence. Qed.
Lemma filter_map {A B} : forall (f : A -> B) p l, filter p (map f l) = map f (filter (fun x => p (f x)) l).
Proof. induction l; simpl; auto. destruct (p (f a)); simpl; congruence. Qed.
Lemma collect_some {A} : forall (l : list (option A)) xs, collect l = Some xs -> l = map Some xs.
Proof.
  induction l as [|[x|] l IH]; simpl; intros xs H; try discriminate.
  - inversion H; auto.
  - destruct (collect l) as [ys|]; [|discriminate]. inversion H; subst. simpl. f_equal. auto.
Qed.
Lemma collect_map_some {A} : forall xs : list A, collect (map Some xs) = Some xs.
Proof. induction xs; simpl; auto. rewrite IHxs. auto. Qed.
Lemma collect_none {A} : forall (l : list (option A)), collect l = None -> In None l.
Proof.
  induction l as [|[x|] l IH]; simpl; intros H; try discriminate; auto.
  destruct (collect l); [discriminate|auto].
Qed.
Lemma collect_in_none {A} : forall (l : list (option A)), In None l -> collect l = None.
Proof.
  induction l as [|[x|] l IH]; simpl; intros H; try tauto.
  destruct H as [H|H]; [discriminate|]. rewrite IH; auto.
Qed.

(** ** The table of surfaces, one column at a time *)
Definition cell_pass (lut : list (Z * surf)) (x : cell) : cell :=
  fold_left (fun y e => if Z.eqb (snd (hit_of y)) (fst e) then apply_surface (snd e) y else y) lut x.

Lemma lut_entry_map : forall e cells cells', lut_entry e cells = Some cells' ->
  cells' = map (fun y => if Z.eqb (snd (hit_of y)) (fst e) then apply_surface (snd e) y else y) cells.
Proof.
  intros [id s] cells cells' H. unfold lut_entry in H. cbn [fst snd].
  destruct (existsb (fun x => Z.eqb (snd (hit_of x)) id) cells) eqn:X.
  - destruct (s_mat s); inversion H; auto.
  - inversion H; subst. clear H. induction cells' as [|y ys IH]; auto. simpl in *.
    apply orb_false_iff in X. destruct X as [X1 X2]. rewrite X1, <- IH; auto.
Qed.

Lemma apply_surface_hit : forall s x, hit_of (apply_surface s x) = hit_of x.
Proof. intros s [h oc]. reflexivity. Qed.
Lemma cell_pass_hit : forall lut x, hit_of (cell_pass lut x) = hit_of x.
Proof.
  unfold cell_pass. induction lut as [|e lut IH]; simpl; intros x; auto. rewrite IH.
  destruct (Z.eqb (snd (hit_of x)) (fst e)); auto. apply apply_surface_hit.
Qed.
Lemma lut_pass_map : forall lut cells cells', lut_pass lut cells = Some cells' ->
  cells' = map (cell_pass lut) cells.
Proof.
  induction lut as [|e lut IH]; simpl; intros cells cells' H.
  - inversion H. unfold cell_pass. simpl. rewrite map_id. auto.
  - destruct (lut_entry e cells) as [c1|] eqn:E; [|discriminate]. rewrite (IH _ _ H).
    rewrite (lut_entry_map _ _ _ E), map_map. apply map_ext. intros x. reflexivity.
Qed.
(** It raises only if a surface without a trace method is hit. *)
Lemma lut_pass_raise : forall lut cells, lut_pass lut cells = None ->
  exists e x, In e lut /\ s_mat (snd e) = Untraceable /\ In x cells /\ snd (hit_of x) = fst e.
Proof.
  induction lut as [|e lut IH]; simpl; intros cells H; [discriminate|].
  destruct (lut_entry e cells) as [c1|] eqn:E.
  - destruct (IH _ H) as (e' & x & I & M & X & Q). rewrite (lut_entry_map _ _ _ E) in X. apply in_map_iff in X.
    destruct X as (y & Y & J). exists e', y. repeat split; auto. rewrite <- Q, <- Y.
    destruct (Z.eqb (snd (hit_of y)) (fst e)); auto. rewrite apply_surface_hit. auto.
  - unfold lut_entry in E. destruct e as [id s].
    destruct (existsb (fun x => Z.eqb (snd (hit_of x)) id) cells) eqn:X; [|discriminate].
    apply existsb_exists in X. destruct X as (x & J & Q). apply Z.eqb_eq in Q.
    exists (id, s), x. cbn [fst snd]. split; [left; auto|]. split; [destruct (s_mat s); try discriminate; auto|]. split; auto.
Qed.

(** ** One ray *)
Inductive rstep : Type := SStop | SNan | SGo (w : row) (n : col).

Section OneRay.
  Variable asort : list xr -> list nat.
  Variable comps : list shape.
  Variable lut : list (Z * surf).

  Definition cell_of (c : col) : cell :=
    cell_pass lut (start_cell (propagate asort comps c) c).
  Definition step_ray (c : col) : rstep :=
    if dead c (propagate asort comps c) then SStop
    else match snd (cell_of c) with
         | None => SNan
         | Some n => match make_row c n (snd (propagate asort comps c)) with None => SNan | Some w => SGo w n end
         end.
  Definition step_rows (c : col) : list row := match step_ray c with SGo w _ => [w] | _ => [] end.
  Definition step_next (g : nat) (c : col) : list col :=
    match step_ray c with SGo _ n => [with_gen (S g) n] | _ => [] end.
  Definition steps_on (c : col) : Prop := exists w n, step_ray c = SGo w n.

  Lemma hit_cell_of : forall c, hit_of (cell_of c) = propagate asort comps c.
  Proof. intros c. unfold cell_of. rewrite cell_pass_hit. reflexivity. Qed.

  Lemma interact_cases : forall limit g rays,
    match interact lut limit g rays (map (propagate asort comps) rays) with
    | IRaise => exists e c, In e lut /\ s_mat (snd e) = Untraceable /\ In c rays /\ snd (propagate asort comps c) = fst e
    | INan => exists c, In c rays /\ step_ray c = SNan
    | IAllDead => forall c, In c rays -> step_ray c = SStop
    | INext rows next g' fin =>
        (forall c, In c rays -> step_ray c <> SNan) /\ (exists c, In c rays /\ steps_on c) /\
        rows = flat_map step_rows rays /\ g' = S g /\ fin = Z.eqb (Z.of_nat (S g)) limit /\
        next = (if fin then flat_map (step_next g) rays
                else map (forward ray_offset_value) (flat_map (step_next g) rays))
    end.
  Proof.
    intros limit g rays. unfold interact. rewrite combine_map_l, map_map. cbn [fst snd].
    destruct (lut_pass lut (map (fun x => start_cell (propagate asort comps x) x) rays)) as [cells|] eqn:L.
    2:{ destruct (lut_pass_raise _ _ L) as (e & x & I & M & X & Q). apply in_map_iff in X.
        destruct X as (c & C & J). exists e, c. repeat split; auto. rewrite <- Q, <- C. reflexivity. }
    apply lut_pass_map in L. rewrite map_map in L. subst cells. rewrite combine_map_r, filter_map.
    cbn [fst snd]. change (fun x => cell_pass lut (start_cell (propagate asort comps x) x)) with cell_of.
    set (p := fun x => negb (dead x (hit_of (cell_of x)))).
    assert (P : forall c, p c = negb (dead c (propagate asort comps c))).
    { intros c. unfold p. rewrite hit_cell_of. auto. }
    change (fun x => negb (dead x (hit_of (cell_pass lut (start_cell (propagate asort comps x) x))))) with p.
    change (fun x => (x, cell_pass lut (start_cell (propagate asort comps x) x))) with (fun x => (x, cell_of x)).
    clearbody p.
    assert (D : forall c, In c rays -> p c = false -> step_ray c = SStop).
    { intros c _ Q. rewrite P in Q. unfold step_ray. destruct (dead c (propagate asort comps c)); auto. discriminate. }
    destruct (map (fun x => (x, cell_of x)) (filter p rays)) as [|q0 qs] eqn:E.
    { intros c J. apply D; auto. destruct (p c) eqn:Q; auto. exfalso.
      assert (I : In c (filter p rays)) by (apply filter_In; auto).
      destruct (filter p rays); [contradiction|discriminate]. }
    assert (Z0 : exists c, In c rays /\ p c = true).
    { destruct (filter p rays) as [|c0 cs] eqn:F; [discriminate|]. exists c0. apply filter_In. rewrite F. left; auto. }
    rewrite <- E. clear E q0 qs. rewrite map_map. cbn [fst snd].
    destruct (collect (map (fun x => snd (cell_of x)) (filter p rays))) as [next|] eqn:N.
    2:{ apply collect_none in N. apply in_map_iff in N. destruct N as (c & C & J). apply filter_In in J.
        destruct J as [J Q]. exists c. split; auto. rewrite P in Q. unfold step_ray.
        destruct (dead c (propagate asort comps c)); [discriminate|]. rewrite C. auto. }
    apply collect_some in N.
    match goal with |- context [collect ?l] => destruct (collect l) as [rows|] eqn:W end.
    2:{ apply collect_none in W. clear - N W P D. revert next N W.
        induction rays as [|c rays IH]; simpl; intros next N W; [contradiction|].
        destruct (p c) eqn:Q; simpl in *.
        - destruct next as [|n next]; [discriminate|]. simpl in *. inversion N. destruct W as [W|W].
          + exists c. split; auto. rewrite P in Q. unfold step_ray.
            destruct (dead c (propagate asort comps c)); [discriminate|]. rewrite H0.
            cbn [fst snd] in W. rewrite hit_cell_of in W. rewrite W. auto.
          + destruct (IH (fun c' J => D c' (or_intror J)) next H1 W) as (c' & J & S'). eauto.
        - destruct (IH (fun c' J => D c' (or_intror J)) next N W) as (c' & J & S'). eauto. }
    apply collect_some in W.
    assert (K : (forall c, In c rays -> step_ray c <> SNan) /\ rows = flat_map step_rows rays /\
                map (with_gen (S g)) next = flat_map (step_next g) rays).
    { clear - N W P D. revert next rows N W. induction rays as [|c rays IH]; simpl; intros next rows N W.
      - destruct next; [|discriminate]. destruct rows; [|discriminate]. auto.
      - destruct (p c) eqn:Q; simpl in *.
        + destruct next as [|n next]; [discriminate|]. simpl in *. inversion N as [[N1 N2]].
          destruct rows as [|w rows]; [discriminate|]. simpl in W. inversion W as [[W1 W2]].
          rewrite hit_cell_of in W1. rewrite P in Q.
          assert (G : step_ray c = SGo w n).
          { unfold step_ray. destruct (dead c (propagate asort comps c)); [discriminate|]. rewrite N1, W1. auto. }
          destruct (IH (fun c' J => D c' (or_intror J)) next rows N2 W2) as (A & B & C).
          split; [|split].
          * intros c' [<-|J]; [rewrite G; discriminate|auto].
          * unfold step_rows at 1. rewrite G. simpl. congruence.
          * unfold step_next at 1. rewrite G. simpl. congruence.
        + assert (G : step_ray c = SStop) by (apply D; auto).
          destruct (IH (fun c' J => D c' (or_intror J)) next rows N W) as (A & B & C).
          split; [|split].
          * intros c' [<-|J]; [rewrite G; discriminate|auto].
          * unfold step_rows at 1. rewrite G. auto.
          * unfold step_next at 1. rewrite G. auto. }
    destruct K as (A & B & C).
    assert (X : exists c, In c rays /\ steps_on c).
    { destruct Z0 as (c & J & Q). exists c. split; auto. rewrite P in Q. specialize (A c J). unfold steps_on.
      revert A. unfold step_ray. destruct (dead c (propagate asort comps c)); [discriminate|].
      destruct (snd (cell_of c)); [|congruence].
      destruct (make_row c c0 (snd (propagate asort comps c))); [eauto|congruence]. }
    rewrite C, B. destruct (Z.eqb (Z.of_nat (S g)) limit) eqn:F; rewrite ?F; repeat split; auto.
  Qed.
End OneRay.
