(** * SheetFacts: the column of a plane cut by any solid *)
From Coq Require Import Reals Lra Lia List Bool ZArith Sorted Permutation Arith.
Import ListNotations.
From Verif Require Import XR XRFacts Arr ArrFacts Csg SpecCsg CsgFacts CsgProps SpecStop StopFacts Chords.
Open Scope nat_scope.

Lemma ss_app : forall (R : nat -> nat -> Prop) l l', StronglySorted R l -> StronglySorted R l' ->
  (forall i j, In i l -> In j l' -> R i j) -> StronglySorted R (l ++ l').
Proof.
  intros R. induction l as [|i l IH]; intros l' S S' C; [exact S'|]. inversion S as [|? ? S1 S2]; subst. cbn [app]. constructor.
  - apply IH; auto. intros a b A B. apply C; [right; exact A|exact B].
  - apply Forall_app. split; [exact S2|]. apply Forall_forall. intros j J. apply C; [left; reflexivity|exact J].
Qed.
Lemma ss_seq : forall (R : nat -> nat -> Prop) n m, (forall i j, m <= i -> i < j -> j < m + n -> R i j) -> StronglySorted R (seq m n).
Proof.
  intros R. induction n as [|n IH]; intros m H; cbn [seq]; constructor.
  - apply IH. intros i j A B C. apply H; lia.
  - apply Forall_forall. intros j J. apply in_seq in J. apply H; lia.
Qed.

(** Is a plate kept that is reached inside ([a = true]) or outside the solid it is combined with? *)
Definition kept (op : operation) (a : bool) : bool := match op with DIFFERENCE => negb a | _ => a end.

(** ** One hit after the other *)
Section Run.
  Variables (op : operation) (n1 : nat) (l : list xr).
  Fixpoint run (c : Z) (p : list nat) : list xr :=
    match p with
    | [] => []
    | i :: p => let c' := (c + csg_mask op n1 i)%Z in
                (if xorb (flag op c') (flag op c) then nth i l PInf else PInf) :: run c' p
    end.
  Lemma run_is : forall p c, where_fill (adj xorb (flag op c) (map (flag op) (cumsum_from c (map (csg_mask op n1) p)))) (gather PInf l p) PInf = run c p.
  Proof.
    induction p as [|i p IH]; intro c; [reflexivity|]. cbn [map cumsum_from adj gather run where_fill combine fst snd]. f_equal. apply IH.
  Qed.
  Lemma run_app : forall p q c, run c (p ++ q) = run c p ++ run (c + zsum (map (csg_mask op n1) p))%Z q.
  Proof.
    induction p as [|i p IH]; intros q c; cbn [app run map zsum fold_right].
    - rewrite Z.add_0_r. reflexivity.
    - rewrite IH. cbn [app]. f_equal. f_equal. f_equal. fold (zsum (map (csg_mask op n1) p)). lia.
  Qed.
  Lemma run_inf : forall p c, (forall i, In i p -> nth i l PInf = PInf) -> run c p = repeat PInf (length p).
  Proof.
    induction p as [|i p IH]; intros c H; [reflexivity|]. cbn [run length repeat]. rewrite (H i (or_introl eq_refl)). destruct (xorb _ _); f_equal; apply IH; intros j J; apply H; right; exact J.
  Qed.
  Hypothesis OP : op <> UNION.
  Hypothesis E1 : Nat.odd n1 = false.
  (** the count after [k] hits of the solid *)
  Definition base (k : nat) : Z := b2z (kept op (Nat.odd k)).
  Lemma base_0 : init_count op = base 0.
  Proof. unfold base. destruct op; [congruence|reflexivity|reflexivity]. Qed.
  Lemma mask_right : forall k, (base k + csg_mask op n1 (n1 + k) = base (S k))%Z.
  Proof.
    intro k. unfold base, csg_mask. rewrite Nat.odd_add, E1, Nat.odd_succ, <- Nat.negb_odd. rewrite (proj2 (Nat.leb_le n1 (n1 + k))) by lia. destruct op; [congruence| |]; destruct (Nat.odd k); reflexivity.
  Qed.
  Lemma base_flag : forall k, flag op (base k) = false.
  Proof. intro k. unfold base. destruct op; [congruence| |]; cbn [kept flag]; destruct (Nat.odd k); reflexivity. Qed.
  Lemma run_right : forall m k, run (base k) (seq (n1 + k) m) = repeat PInf m /\
    (base k + zsum (map (csg_mask op n1) (seq (n1 + k) m)) = base (k + m))%Z.
  Proof.
    induction m as [|m IH]; intro k; cbn [seq run repeat map zsum fold_right].
    - rewrite Nat.add_0_r, Z.add_0_r. auto.
    - destruct (IH (S k)) as [H H']. replace (n1 + S k) with (S (n1 + k)) in * by lia. replace (k + S m) with (S k + m) by lia.
      fold (zsum (map (csg_mask op n1) (seq (S (n1 + k)) m))) in *. rewrite mask_right, !base_flag, H. split; [reflexivity|]. rewrite <- H'. rewrite <- mask_right. lia.
  Qed.
End Run.

Section Sheet.
  Variable asort : list xr -> list nat.
  Hypothesis AS : argsort_ok asort.
  Hypothesis KT : keeps_ties asort.
  Variable op : operation.
  Hypothesis OP : op <> UNION.

  Lemma unsorted_is : forall l1 l2 p, Nat.odd (length l1) = false -> Nat.odd (length l2) = false -> asort (l1 ++ l2) = p ->
    array_csg_unsorted PInf asort l1 l2 op = run op (length l1) (l1 ++ l2) (base op 0) p.
  Proof.
    intros l1 l2 p E1 E2 Ep. unfold array_csg_unsorted. rewrite Ep, csg_keep_adj.
    - rewrite <- (base_flag op OP 0) at 1. rewrite (base_0 op OP). apply run_is.
    - destruct (AS (l1 ++ l2)) as [P _]. rewrite Ep in P. rewrite (zsum_perm _ _ (Permutation_map _ P)).
      rewrite app_length, seq_app. replace (seq (0 + length l1) (length l2)) with (map (fun i => length l1 + i) (seq 0 (length l2))).
      + rewrite mask_sum by auto. rewrite E1, E2. destruct op; [congruence|reflexivity|reflexivity].
      + clear. generalize (length l1) as a. intro a. generalize (length l2) as b. intro b. cbn [plus].
        assert (K : forall b s, map (fun i => a + i) (seq s b) = seq (a + s) b).
        { induction b0 as [|b0 IH]; intro s; cbn [seq map]; [reflexivity|]. f_equal. rewrite IH. f_equal. lia. }
        rewrite K. f_equal. lia.
  Qed.
  (** the values of the second list: below [T], from [T] on, and the rest *)
  Section Blocks.
    Variables (n m1 m2 m3 : nat) (T : xr) (rh : list xr).
    Hypothesis LR : length rh = m1 + m2 + m3.
    Hypothesis TP : xsle T PInf = true.
    Hypothesis SR : forall i j, i <= j -> j < length rh -> xsle (nth i rh PInf) (nth j rh PInf) = true.
    Hypothesis B1 : forall i, i < m1 -> xsle T (nth i rh PInf) = false.
    Hypothesis B2 : forall i, m1 <= i -> i < m1 + m2 -> xsle T (nth i rh PInf) = true /\ xsle (nth i rh PInf) PInf = true /\ nth i rh PInf <> PInf.
    Hypothesis B3 : forall i, m1 + m2 <= i -> nth i rh PInf = PInf.
    Lemma below_T : forall i, i < m1 -> xsle (nth i rh PInf) T = true /\ nth i rh PInf <> T.
    Proof.
      intros i H. specialize (B1 i H). split; [destruct (xsle_total T (nth i rh PInf)); congruence|]. intros E. rewrite E, xsle_refl in B1. discriminate.
    Qed.
    Lemma sorted_blocks : T <> PInf -> asort ([T; T] ++ repeat PInf n ++ rh) = seq (2 + n) m1 ++ [0; 1] ++ seq (2 + n + m1) m2 ++ seq 2 n ++ seq (2 + n + m1 + m2) m3.
    Proof.
      intro TN. set (l := [T; T] ++ repeat PInf n ++ rh).
      assert (LL : length l = 2 + n + (m1 + m2 + m3)) by (unfold l; rewrite !app_length, repeat_length, LR; reflexivity).
      assert (VR : forall k, nth (2 + n + k) l PInf = nth k rh PInf).
      { intro k. unfold l. rewrite app_nth2 by (cbn; lia). rewrite app_nth2 by (rewrite repeat_length; cbn; lia). rewrite repeat_length. f_equal. cbn. lia. }
      assert (VP : forall j, 2 <= j -> j < 2 + n -> nth j l PInf = PInf).
      { intros j H H'. unfold l. rewrite app_nth2 by (cbn; lia). rewrite app_nth1 by (rewrite repeat_length; cbn; lia). apply nth_repeat. }
      apply (asort_unique asort AS KT).
      - rewrite LL. replace (2 + n + (m1 + m2 + m3)) with (2 + (n + (m1 + (m2 + m3)))) by lia. rewrite (seq_app 2), (seq_app n), (seq_app m1), (seq_app m2).
        replace (0 + 2 + n) with (2 + n) by lia. replace (0 + 2) with 2 by lia. change (seq 0 2) with [0; 1].
        set (x1 := seq (2 + n) m1). set (x2 := seq (2 + n + m1) m2). set (x3 := seq (2 + n + m1 + m2) m3). set (y := seq 2 n).
        rewrite (Permutation_app_comm x1). rewrite <- !app_assoc. apply Permutation_app_head.
        rewrite (Permutation_app_comm x3 x1). rewrite !app_assoc. apply Permutation_app_tail. rewrite (Permutation_app_comm (x2 ++ y) x1), app_assoc.
        rewrite (Permutation_app_comm (x1 ++ x2) y), app_assoc. reflexivity.
      - assert (H1 : forall i, In i (seq (2 + n) m1) -> exists k, i = 2 + n + k /\ k < m1) by (intros i I; apply in_seq in I; exists (i - (2 + n)); lia).
        assert (H2 : forall i, In i (seq (2 + n + m1) m2) -> exists k, i = 2 + n + k /\ m1 <= k < m1 + m2) by (intros i I; apply in_seq in I; exists (i - (2 + n)); lia).
        assert (H3 : forall i, In i (seq (2 + n + m1 + m2) m3) -> exists k, i = 2 + n + k /\ m1 + m2 <= k < m1 + m2 + m3) by (intros i I; apply in_seq in I; exists (i - (2 + n)); lia).
        assert (H0 : forall i, In i [0; 1] -> nth i l PInf = T /\ i < 2) by (intros i [<-|[<-|[]]]; split; (reflexivity || lia)).
        assert (HP : forall i, In i (seq 2 n) -> nth i l PInf = PInf /\ 2 <= i < 2 + n) by (intros i I; apply in_seq in I; split; [apply VP; lia|lia]).
        apply ss_app; [|apply ss_app; [|apply ss_app; [|apply ss_app|]|]|].
        + apply ss_seq. intros i j A B C. unfold tie_order. replace i with (2 + n + (i - (2 + n))) by lia. replace j with (2 + n + (j - (2 + n))) by lia.
          rewrite !VR. split; [apply SR; lia|]. intros _. lia.
        + repeat constructor; try apply xsle_refl; cbn; auto.
        + apply ss_seq. intros i j A B C. unfold tie_order. replace i with (2 + n + (i - (2 + n))) by lia. replace j with (2 + n + (j - (2 + n))) by lia.
          rewrite !VR. split; [apply SR; lia|]. intros _. lia.
        + apply ss_seq. intros i j A B C. unfold tie_order. rewrite !VP by lia. split; [reflexivity|]. intros _. exact B.
        + apply ss_seq. intros i j A B C. unfold tie_order. replace i with (2 + n + (i - (2 + n))) by lia. replace j with (2 + n + (j - (2 + n))) by lia.
          rewrite !VR. split; [apply SR; lia|]. intros _. lia.
        + intros i j I J. apply HP in I. apply H3 in J. destruct I as [I I'], J as (k & -> & K). unfold tie_order. rewrite I, VR, B3 by lia. split; [reflexivity|]. intros _; lia.
        + intros i j I J. apply H2 in I. destruct I as (k & -> & K). unfold tie_order. rewrite VR. destruct (B2 k) as (_ & X & Y); [lia|lia|].
          apply in_app_or in J. destruct J as [J|J].
          * apply HP in J. destruct J as [J _]. rewrite J. split; [exact X|]. intro; contradiction.
          * apply H3 in J. destruct J as (k' & -> & K'). rewrite VR, (B3 k') by lia. split; [exact X|]. intro; contradiction.
        + intros i j I J. apply H0 in I. destruct I as [I I']. unfold tie_order. rewrite I. apply in_app_or in J. destruct J as [J|J]; [|apply in_app_or in J; destruct J as [J|J]].
          * apply H2 in J. destruct J as (k & -> & K). rewrite VR. split; [apply B2; lia|]. intros _; lia.
          * apply HP in J. destruct J as [J J']. rewrite J. split; [exact TP|]. intros _; lia.
          * apply H3 in J. destruct J as (k & -> & K). rewrite VR, B3 by lia. split; [exact TP|]. intros _; lia.
        + intros i j I J. apply H1 in I. destruct I as (k & -> & K). unfold tie_order. rewrite VR. destruct (below_T k K) as [X Y].
          apply in_app_or in J. destruct J as [J|J]; [|apply in_app_or in J; destruct J as [J|J]; [|apply in_app_or in J; destruct J as [J|J]]].
          * apply H0 in J. destruct J as [J _]. rewrite J. split; [exact X|]. intro; contradiction.
          * apply H2 in J. destruct J as (k' & -> & K'). rewrite VR. split; [apply SR; lia|]. intros _; lia.
          * apply HP in J. destruct J as [J _]. rewrite J. split; [apply (xsle_trans _ T); auto|]. intro Z. exfalso. specialize (B1 k K). rewrite Z, TP in B1. discriminate.
          * apply H3 in J. destruct J as (k' & -> & K'). rewrite VR. split; [apply SR; lia|]. intros _; lia.
    Qed.
    Hypothesis EN : Nat.odd n = false.
    Hypothesis ER : Nat.odd (length rh) = false.
    Lemma sheet_unsorted : T <> PInf -> array_csg_unsorted PInf asort ([T; T] ++ repeat PInf n) rh op =
      repeat PInf m1 ++ (if kept op (Nat.odd m1) then [T; T] else [PInf; PInf]) ++ repeat PInf (m2 + n + m3).
    Proof.
      intro TN. assert (L1 : length ([T; T] ++ repeat PInf n) = 2 + n) by (rewrite app_length, repeat_length; reflexivity).
      assert (E1 : Nat.odd (2 + n) = false) by (rewrite Nat.odd_add, EN; reflexivity).
      erewrite unsorted_is; [|rewrite L1; exact E1|exact ER|rewrite <- app_assoc; exact (sorted_blocks TN)].
      rewrite L1. rewrite <- app_assoc. set (l := [T; T] ++ repeat PInf n ++ rh).
      rewrite !run_app. destruct (run_right op (2 + n) l OP E1 m1 0) as [R1 Z1]. rewrite Nat.add_0_r in R1, Z1.
      change (0 + m1) with m1 in Z1. rewrite R1, Z1. f_equal.
      assert (M0 : csg_mask op (2 + n) 0 = 1%Z /\ csg_mask op (2 + n) 1 = (-1)%Z) by (destruct op; split; reflexivity).
      destruct M0 as [M0 M0']. cbn [map]. rewrite M0, M0'. change (zsum [1%Z; (-1)%Z]) with 0%Z. rewrite Z.add_0_r. cbn [run]. rewrite M0, M0'.
      assert (V0 : nth 0 l PInf = T /\ nth 1 l PInf = T) by (split; reflexivity). destruct V0 as [V0 V0']. rewrite V0, V0'.
      destruct (run_right op (2 + n) l OP E1 m2 m1) as [R2 Z2]. rewrite R2, Z2. rewrite (run_inf op (2 + n) l (seq 2 n)), (run_inf op (2 + n) l (seq (2 + n + m1 + m2) m3)).
      - rewrite !seq_length, <- !repeat_app. f_equal; [unfold base; destruct op; [congruence| |]; cbn [kept flag]; destruct (Nat.odd m1); reflexivity|]. f_equal. lia.
      - intros i I. apply in_seq in I. unfold l. rewrite app_nth2 by (cbn; lia). rewrite app_nth2 by (rewrite repeat_length; cbn; lia).
        apply B3. rewrite repeat_length. cbn. lia.
      - intros i I. apply in_seq in I. unfold l. rewrite app_nth2 by (cbn; lia). rewrite app_nth1 by (rewrite repeat_length; cbn; lia). apply nth_repeat.
    Qed.
  End Blocks.
End Sheet.

(** ** From a column to its blocks *)
Lemma blocks : forall t rh, StronglySorted (fun a b => xsle a b = true) rh -> ends rh ->
  exists m1 m2 m3, length rh = m1 + m2 + m3 /\ m1 = below xsle (Fin t) rh /\
    (forall i, i < m1 -> xsle (Fin t) (nth i rh PInf) = false) /\
    (forall i, m1 <= i -> i < m1 + m2 -> xsle (Fin t) (nth i rh PInf) = true /\ xsle (nth i rh PInf) PInf = true /\ nth i rh PInf <> PInf) /\
    (forall i, m1 + m2 <= i -> nth i rh PInf = PInf).
Proof.
  intros t. induction rh as [|x rh IH]; intros SS E.
  - exists 0, 0, 0. repeat split; try (intros; lia). intros i _. destruct i; reflexivity.
  - inversion SS as [|? ? S1 S2]; subst. destruct (IH S1 (fun y J => E y (or_intror J))) as (m1 & m2 & m3 & L & B & H1 & H2 & H3).
    destruct (xsle (Fin t) x) eqn:X.
    + assert (Z : m1 = 0).
      { rewrite B. apply below_none. apply Forall_forall. intros y Y. rewrite Forall_forall in S2. unfold before. rewrite (xsle_trans _ x); auto. }
      assert (BZ : below xsle (Fin t) (x :: rh) = 0).
      { apply below_none. apply Forall_forall. intros y [<-|Y]; unfold before; [rewrite X; reflexivity|]. rewrite Forall_forall in S2. rewrite (xsle_trans _ x); auto. }
      clear B. subst m1. destruct (E x (or_introl eq_refl)) as [->|(u & ->)].
      * exists 0, 0, (S (length rh)). rewrite BZ. repeat split; try (intros; lia). intros i _. destruct i as [|i]; [reflexivity|]. cbn [nth].
        destruct (Nat.lt_ge_cases i (length rh)) as [I|I]; [|apply nth_overflow; exact I]. rewrite Forall_forall in S2. specialize (S2 _ (nth_In rh PInf I)).
        destruct (E (nth i rh PInf) (or_intror (nth_In rh PInf I))) as [G|(g & G)]; rewrite G in S2 |- *; [reflexivity|discriminate].
      * exists 0, (S m2), m3. rewrite BZ. cbn [length]. rewrite L. split; [lia|]. split; [reflexivity|]. split; [intros; lia|]. split.
        -- intros i _ I. destruct i as [|i]; cbn [nth]; [split; [exact X|]; split; [reflexivity|discriminate]|]. apply H2; lia.
        -- intros i I. destruct i as [|i]; [lia|]. cbn [nth]. apply H3; lia.
    + exists (S m1), m2, m3. cbn [length]. rewrite L. split; [lia|]. split.
      { unfold below. cbn [filter]. unfold before at 1. rewrite X. cbn [negb length]. f_equal. exact B. }
      split; [|split].
      * intros i I. destruct i as [|i]; cbn [nth]; [exact X|]. apply H1; lia.
      * intros i I J. destruct i as [|i]; [lia|]. cbn [nth]. apply H2; lia.
      * intros i I. destruct i as [|i]; [lia|]. cbn [nth]. apply H3; lia.
Qed.

Section Columns.
  Variable asort : list xr -> list nat.
  Hypothesis AS : argsort_ok asort.
  Hypothesis KT : keeps_ties asort.
  Variable op : operation.
  Hypothesis OP : op <> UNION.

  Lemma second_sort : forall m k t, asort (repeat PInf m ++ [Fin t; Fin t] ++ repeat PInf k) = [m; S m] ++ seq 0 m ++ seq (2 + m) k.
  Proof.
    intros m k t. set (l := repeat PInf m ++ [Fin t; Fin t] ++ repeat PInf k).
    assert (V : nth m l PInf = Fin t /\ nth (S m) l PInf = Fin t).
    { unfold l. split; (rewrite app_nth2 by (rewrite repeat_length; lia)); rewrite repeat_length; [rewrite Nat.sub_diag|replace (S m - m) with 1 by lia]; reflexivity. }
    assert (VP : forall i, i < m \/ 2 + m <= i -> nth i l PInf = PInf).
    { intros i [I|I]; unfold l.
      - rewrite app_nth1 by (rewrite repeat_length; lia). apply nth_repeat.
      - rewrite app_nth2 by (rewrite repeat_length; lia). rewrite repeat_length, app_nth2 by (cbn; lia). apply nth_repeat. }
    apply (asort_unique asort AS KT).
    - replace (length l) with (m + (2 + k)) by (unfold l; rewrite !app_length, !repeat_length; reflexivity).
      rewrite seq_app, seq_app. replace (0 + m + 2) with (2 + m) by lia. cbn [plus seq]. rewrite !app_assoc. apply Permutation_app_tail. apply Permutation_app_comm.
    - assert (HA : forall i, In i (seq 0 m) -> nth i l PInf = PInf /\ i < m) by (intros i I; apply in_seq in I; split; [apply VP; lia|lia]).
      assert (HB : forall i, In i (seq (2 + m) k) -> nth i l PInf = PInf /\ 2 + m <= i) by (intros i I; apply in_seq in I; split; [apply VP; lia|lia]).
      destruct V as [V0 V1]. apply ss_app; [|apply ss_app|].
      + constructor; [constructor; [constructor|constructor]|]. constructor; [|constructor]. unfold tie_order. rewrite V0, V1. split; [apply xsle_refl|]. intros _; lia.
      + apply ss_seq. intros i j A B C. unfold tie_order. rewrite !VP by lia. split; [reflexivity|]. intros _; lia.
      + apply ss_seq. intros i j A B C. unfold tie_order. rewrite !VP by lia. split; [reflexivity|]. intros _; lia.
      + intros i j I J. apply HA in I. apply HB in J. destruct I as [I I'], J as [J J']. unfold tie_order. rewrite I, J. split; [reflexivity|]. intros _; lia.
      + intros i j I J. assert (F : nth i l PInf = Fin t) by (destruct I as [<-|[<-|[]]]; auto). assert (G : nth j l PInf = PInf).
        { apply in_app_or in J. destruct J as [J|J]; [apply HA in J|apply HB in J]; tauto. }
        unfold tie_order. rewrite F, G. split; [reflexivity|discriminate].
  Qed.

  (** the plane is kept *)
  Lemma combine_kept : forall t n i ls rh rs, Nat.odd n = false -> length ls = n -> length rs = length rh ->
    StronglySorted (fun a b => xsle a b = true) rh -> ends rh -> Nat.odd (length rh) = false -> kept op (inside_at xsle (Fin t) rh) = true ->
    exists ids, csg_combine PInf asort op (Fin t :: Fin t :: repeat PInf n) (i :: i :: ls) rh rs =
      (Fin t :: Fin t :: repeat PInf (n + length rh), i :: i :: ids) /\ length ids = n + length rh.
  Proof.
    intros t n i ls rh rs EN LS LRS SS E ER O. destruct (blocks t rh SS E) as (m1 & m2 & m3 & L & B & H1 & H2 & H3).
    assert (SR : forall i j, i <= j -> j < length rh -> xsle (nth i rh PInf) (nth j rh PInf) = true).
    { intros a b A C. apply (sorted_asc rh SS); auto. }
    unfold inside_at in O. rewrite <- B in O.
    pose proof (sheet_unsorted asort AS KT op OP n m1 m2 m3 (Fin t) rh L eq_refl SR H1 H2 H3 EN ER ltac:(discriminate)) as U.
    pose proof (sorted_blocks asort AS KT n m1 m2 m3 (Fin t) rh L eq_refl SR H1 H2 H3 ltac:(discriminate)) as P.
    rewrite O in U. unfold csg_combine. change (Fin t :: Fin t :: repeat PInf n) with ([Fin t; Fin t] ++ repeat PInf n). rewrite U, second_sort.
    rewrite <- app_assoc, P. set (p := seq (2 + n) m1 ++ [0; 1] ++ seq (2 + n + m1) m2 ++ seq 2 n ++ seq (2 + n + m1 + m2) m3).
    assert (LP : length p = 2 + n + (m1 + m2 + m3)) by (unfold p; rewrite !app_length, !seq_length; cbn; lia).
    assert (P0 : nth m1 p 0 = 0 /\ nth (S m1) p 0 = 1).
    { unfold p. split; (rewrite app_nth2 by (rewrite seq_length; lia)); rewrite seq_length; [rewrite Nat.sub_diag|replace (S m1 - m1) with 1 by lia]; reflexivity. }
    set (ss := gather (-1)%Z ((i :: i :: ls) ++ rs) p).
    assert (G : nth m1 ss (-1)%Z = i /\ nth (S m1) ss (-1)%Z = i).
    { assert (K : forall j, j < length p -> nth j ss (-1)%Z = nth (nth j p 0) ((i :: i :: ls) ++ rs) (-1)%Z).
      { intros j J. unfold ss, gather. rewrite (nth_indep _ (-1)%Z (nth 0 ((i :: i :: ls) ++ rs) (-1)%Z)) by (rewrite map_length; lia).
        apply (map_nth (fun k => nth k ((i :: i :: ls) ++ rs) (-1)%Z)). }
      rewrite !K by lia. destruct P0 as [-> ->]. split; reflexivity. }
    exists (gather (-1)%Z ss (seq 0 m1 ++ seq (2 + m1) (m2 + n + m3))). split.
    - f_equal.
      + set (V := repeat PInf m1 ++ [Fin t; Fin t] ++ repeat PInf (m2 + n + m3)).
        assert (W : nth m1 V PInf = Fin t /\ nth (S m1) V PInf = Fin t).
        { unfold V. split; (rewrite app_nth2 by (rewrite repeat_length; lia)); rewrite repeat_length; [rewrite Nat.sub_diag|replace (S m1 - m1) with 1 by lia]; reflexivity. }
        destruct W as [W0 W1]. unfold gather. cbn [app map]. rewrite W0, W1. do 2 f_equal.
        assert (K : forall q, (forall i, In i q -> i < m1 \/ 2 + m1 <= i) -> map (fun i => nth i V PInf) q = repeat PInf (length q)).
        { induction q as [|a q IH]; intros Q; [reflexivity|]. cbn [map length repeat]. rewrite IH by (intros; apply Q; right; auto). f_equal. unfold V.
          destruct (Q a (or_introl eq_refl)) as [A|A].
          - rewrite app_nth1 by (rewrite repeat_length; lia). apply nth_repeat.
          - rewrite app_nth2 by (rewrite repeat_length; lia). rewrite repeat_length, app_nth2 by (cbn; lia). apply nth_repeat. }
        rewrite K; [rewrite app_length, !seq_length; f_equal; lia|]. intros j J. apply in_app_or in J. destruct J as [J|J]; apply in_seq in J; lia.
      + unfold gather at 1. cbn [app map]. destruct G as [-> ->]. reflexivity.
    - unfold gather. rewrite map_length, app_length, !seq_length. lia.
  Qed.
  (** the plane is cut away *)
  Lemma combine_cut : forall t n ls rh rs, Nat.odd n = false ->
    StronglySorted (fun a b => xsle a b = true) rh -> ends rh -> Nat.odd (length rh) = false -> kept op (inside_at xsle (Fin t) rh) = false ->
    Forall (eq PInf) (fst (csg_combine PInf asort op (Fin t :: Fin t :: repeat PInf n) ls rh rs)).
  Proof.
    intros t n ls rh rs EN SS E ER O. destruct (blocks t rh SS E) as (m1 & m2 & m3 & L & B & H1 & H2 & H3).
    assert (SR : forall i j, i <= j -> j < length rh -> xsle (nth i rh PInf) (nth j rh PInf) = true).
    { intros a b A C. apply (sorted_asc rh SS); auto. }
    unfold inside_at in O. rewrite <- B in O.
    pose proof (sheet_unsorted asort AS KT op OP n m1 m2 m3 (Fin t) rh L eq_refl SR H1 H2 H3 EN ER ltac:(discriminate)) as U.
    rewrite O in U. unfold csg_combine. change (Fin t :: Fin t :: repeat PInf n) with ([Fin t; Fin t] ++ repeat PInf n). rewrite U. cbn [fst]. apply gather_inf.
    repeat (apply Forall_app; split); try (apply Forall_forall; intros x X; apply repeat_spec in X; congruence). repeat constructor.
  Qed.
  (** no plane *)
  Lemma combine_nothing : forall n ls rh rs, Nat.odd n = false ->
    StronglySorted (fun a b => xsle a b = true) rh -> ends rh -> Nat.odd (length rh) = false ->
    Forall (eq PInf) (fst (csg_combine PInf asort op (repeat PInf n) ls rh rs)).
  Proof.
    intros n ls rh rs EN SS E ER. unfold csg_combine. cbn [fst]. apply gather_inf.
    assert (D : exists m1 m3, length rh = m1 + m3 /\ (forall i, i < m1 -> nth i rh PInf <> PInf) /\ (forall i, m1 <= i -> nth i rh PInf = PInf)).
    { clear ER. induction rh as [|x rh IH]; [exists 0, 0; repeat split; intros; try lia; destruct i; reflexivity|].
      inversion SS as [|? ? S1 S2]; subst. destruct (IH S1 (fun y J => E y (or_intror J))) as (m1 & m3 & L & A & B).
      destruct (E x (or_introl eq_refl)) as [->|(u & ->)].
      - exists 0, (S (length rh)). split; [reflexivity|]. split; [intros; lia|]. intros i _. destruct i as [|i]; [reflexivity|]. cbn [nth].
        destruct (Nat.lt_ge_cases i (length rh)) as [I|I]; [|apply nth_overflow; exact I]. rewrite Forall_forall in S2. specialize (S2 _ (nth_In rh PInf I)).
        destruct (E (nth i rh PInf) (or_intror (nth_In rh PInf I))) as [G|(g & G)]; rewrite G in S2 |- *; [reflexivity|discriminate].
      - exists (S m1), m3. split; [cbn [length]; lia|]. split; intros i I; (destruct i as [|i]; [try discriminate; lia|]); cbn [nth]; [apply A|apply B]; lia. }
    destruct D as (m1 & m3 & L & A & B).
    assert (SR : forall i j, i <= j -> j < length rh -> xsle (nth i rh PInf) (nth j rh PInf) = true).
    { intros a b C C'. apply (sorted_asc rh SS); auto. }
    assert (P : asort (repeat PInf n ++ rh) = seq n m1 ++ seq 0 n ++ seq (n + m1) m3).
    { set (l := repeat PInf n ++ rh).
      assert (VR : forall k, nth (n + k) l PInf = nth k rh PInf) by (intro k; unfold l; rewrite app_nth2 by (rewrite repeat_length; lia); rewrite repeat_length; f_equal; lia).
      assert (VP : forall k, k < n -> nth k l PInf = PInf) by (intros k K; unfold l; rewrite app_nth1 by (rewrite repeat_length; lia); apply nth_repeat).
      assert (FI : forall k, k < m1 -> xsle (nth k rh PInf) PInf = true).
      { intros k K. destruct (E (nth k rh PInf)) as [->|(u & ->)]; try reflexivity. apply nth_In. lia. }
      apply (asort_unique asort AS KT).
      - replace (length l) with (n + (m1 + m3)) by (unfold l; rewrite app_length, repeat_length; lia). rewrite seq_app, seq_app. cbn [plus]. rewrite !app_assoc.
        apply Permutation_app_tail. apply Permutation_app_comm.
      - apply ss_app; [|apply ss_app|].
        + apply ss_seq. intros i j I J K. unfold tie_order. replace i with (n + (i - n)) by lia. replace j with (n + (j - n)) by lia. rewrite !VR. split; [apply SR; lia|]. intros _; lia.
        + apply ss_seq. intros i j I J K. unfold tie_order. rewrite !VP by lia. split; [reflexivity|]. intros _; lia.
        + apply ss_seq. intros i j I J K. unfold tie_order. replace i with (n + (i - n)) by lia. replace j with (n + (j - n)) by lia. rewrite !VR. split; [apply SR; lia|]. intros _; lia.
        + intros i j I J. apply in_seq in I. apply in_seq in J. unfold tie_order. replace j with (n + (j - n)) by lia. rewrite VP, VR, B by lia. split; [reflexivity|]. intros _; lia.
        + intros i j I J. apply in_seq in I. unfold tie_order. replace i with (n + (i - n)) by lia. rewrite VR.
          assert (Q : nth j l PInf = PInf).
          { apply in_app_or in J. destruct J as [J|J]; apply in_seq in J; [apply VP; lia|]. replace j with (n + (j - n)) by lia. rewrite VR. apply B. lia. }
          rewrite Q. split; [apply FI; lia|]. intro Z. exfalso. apply (A (i - n)); [lia|exact Z]. }
    erewrite unsorted_is; [|exact AS|exact OP|rewrite repeat_length; exact EN|exact ER|exact P]. rewrite repeat_length, !run_app.
    destruct (run_right op n (repeat PInf n ++ rh) OP EN m1 0) as [R1 _]. rewrite Nat.add_0_r in R1. rewrite R1.
    rewrite !run_inf.
    - repeat (apply Forall_app; split); apply Forall_forall; intros x X; apply repeat_spec in X; congruence.
    - intros i I. apply in_seq in I. rewrite app_nth2 by (rewrite repeat_length; lia). apply B. rewrite repeat_length. lia.
    - intros i I. apply in_seq in I. rewrite app_nth1 by (rewrite repeat_length; lia). apply nth_repeat.
  Qed.
End Columns.
