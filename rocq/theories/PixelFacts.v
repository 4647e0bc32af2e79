(** * PixelFacts: every pixel, with or without hits behind the camera *)
From Coq Require Import Reals List Bool ZArith Lra Lia Psatz.
Import ListNotations.
From Verif Require Import XR XRFacts Arr Lin LinFacts Prim Csg SpecCsg CsgProps Surf World Tracer Sources SpecGeom SpecTree TreeFacts SpecTrace TraceFacts3 Render SpecRender RenderFacts RenderFacts2 SpecPixel.
Open Scope R_scope.

Section Pixel.
  Variable asort : list xr -> list nat.
  Hypothesis AS : argsort_ok asort.

  Lemma forward_of : forall s r, exists x sid, puts_forward asort s r x sid /\
    forall best, render_shape asort r best s = if xltb x (fst best) then (x, sid) else best.
  Proof.
    intros s r. pose proof (shape_nearest asort AS s r) as SN. cbv zeta in SN. destruct (shape_lengths asort AS s r) as (L1 & L2).
    pose proof (shape_rows_pos s) as P. unfold puts_forward, render_shape.
    destruct (shape_intersect asort s r) as [hs ids]. cbn [fst snd] in *.
    destruct SN as [(_ & NP)|(t & sid & _ & _ & T & HK & IK & MIN)].
    - destruct hs as [|x hs]; [cbn in L1; lia|]. destruct ids as [|i ids]; [cbn in L2; lia|].
      exists x, i. split.
      + right. split; [|auto]. intros t I. apply In_nth_error in I. destruct I as (j & J). eauto.
      + intro best. assert (A : argmin (map positive_or_inf (x :: hs)) = O).
        { apply argmin_all_inf. intros y Y. apply in_map_iff in Y. destruct Y as (z & <- & Z). apply In_nth_error in Z. destruct Z as (j & J).
          unfold positive_or_inf. destruct (xltb (Fin 0) z) eqn:E; auto. destruct z; auto; try discriminate.
          cbn in E. apply rltb_true in E. specialize (NP _ _ J). lra. }
        rewrite A. reflexivity.
    - exists (Fin t), sid. split.
      + left. exists (argmin (map positive_or_inf hs)), t. repeat split; auto.
      + intro best. rewrite (nth_error_nth _ _ PInf HK), (nth_error_nth _ _ (-1)%Z IK). reflexivity.
  Qed.
  Lemma forward_unique : forall s r x sid y sid', puts_forward asort s r x sid -> puts_forward asort s r y sid' -> x = y /\ sid = sid'.
  Proof.
    intros s r x sid y sid' H K. unfold puts_forward in *. cbv zeta in *.
    destruct H as [(k & t & -> & T & A & B & M)|(N & A & B)]; destruct K as [(k' & t' & -> & T' & A' & B' & M')|(N' & A' & B')].
    - assert (k = k').
      { destruct (M _ _ A' T') as [Q|[Q Q1]]; destruct (M' _ _ A T) as [Q'|[Q' Q1']]; try lra. lia. }
      subst k'. rewrite A in A'. rewrite B in B'. split; congruence.
    - apply nth_error_In in A. specialize (N' _ A). lra.
    - apply nth_error_In in A'. specialize (N _ A'). lra.
    - split; congruence.
  Qed.
  (** the least of what the components put forward; the earlier one wins ties *)
  Theorem pixel_exactly : forall shapes r,
    (render_hit asort shapes r = (PInf, (-1)%Z) /\
       forall s x sid, In s shapes -> puts_forward asort s r x sid -> x = PInf \/ x = NaN) \/
    (exists before s after x sid, shapes = before ++ s :: after /\ puts_forward asort s r x sid /\ render_hit asort shapes r = (x, sid) /\
       xltb x PInf = true /\
       (forall s' y sid', In s' before -> puts_forward asort s' r y sid' -> y = NaN \/ xltb x y = true) /\
       (forall s' y sid', In s' after -> puts_forward asort s' r y sid' -> y = NaN \/ xleb x y = true)).
  Proof.
    intros shapes r. induction shapes as [|s shapes IH] using rev_ind.
    - left. split; [reflexivity|]. intros s x sid [].
    - assert (E : render_hit asort (shapes ++ [s]) r = render_shape asort r (render_hit asort shapes r) s) by (unfold render_hit; rewrite fold_left_app; reflexivity).
      destruct (forward_of s r) as (x & sid & P & F). rewrite E, F. clear E F.
      destruct IH as [(E & IH)|(before & s0 & after & x0 & sid0 & -> & P0 & E & L & B & A)].
      + rewrite E. cbn [fst]. destruct (xltb x PInf) eqn:X.
        * right. exists shapes, s, [], x, sid. split; [reflexivity|]. split; [exact P|]. split; [reflexivity|]. split; [exact X|].
          split; [|intros s' y sid' []]. intros s' y sid' I Q. destruct (IH _ _ _ I Q) as [->| ->]; auto.
        * left. split; [reflexivity|]. intros s' y sid' I Q. apply in_app_iff in I. destruct I as [I|[<-|[]]]; [eauto|].
          destruct (forward_unique _ _ _ _ _ _ P Q) as (<- & <-). destruct x; auto; discriminate.
      + rewrite E. cbn [fst]. destruct (xltb x x0) eqn:X.
        * right. exists (before ++ s0 :: after), s, [], x, sid. split; [reflexivity|]. split; [exact P|]. split; [reflexivity|].
          split; [apply (xltb_trans_le _ _ _ X); destruct x0; auto; discriminate|]. split; [|intros s' y sid' []].
          intros s' y sid' I Q. apply in_app_iff in I. destruct I as [I|[<-|I]].
          { destruct (B _ _ _ I Q) as [->|G]; auto. right. apply (xltb_trans_le _ _ _ X). apply xltb_xleb. exact G. }
          { destruct (forward_unique _ _ _ _ _ _ P0 Q) as (<- & <-). auto. }
          { destruct (A _ _ _ I Q) as [->|G]; auto. right. apply (xltb_trans_le _ _ _ X). exact G. }
        * right. exists before, s0, (after ++ [s]), x0, sid0. split; [rewrite <- app_assoc; reflexivity|]. split; [exact P0|]. split; [reflexivity|].
          split; [exact L|]. split; [exact B|]. intros s' y sid' I Q. apply in_app_iff in I. destruct I as [I|[<-|[]]]; [eauto|].
          destruct (forward_unique _ _ _ _ _ _ P Q) as (<- & <-). destruct x, x0; auto; try discriminate. right. cbn in *. apply rltb_false in X. apply rleb_true. lra.
  Qed.
  Lemma not_ahead : forall xs, ~ (exists t, In (Fin t) xs /\ 0 < t) -> forall t, In (Fin t) xs -> t <= 0.
  Proof. intros xs N t I. destruct (Rle_dec t 0); auto. exfalso. apply N. exists t. split; auto. lra. Qed.
  Lemma ahead_dec : forall xs, (exists t, In (Fin t) xs /\ 0 < t) \/ ~ (exists t, In (Fin t) xs /\ 0 < t).
  Proof.
    induction xs as [|x xs [(t & I & T)|N]].
    - right. intros (t & [] & _).
    - left. exists t. split; [right|]; auto.
    - destruct x as [t| | |]; [destruct (Rlt_dec 0 t) as [T|T]; [left; exists t; split; [left|]; auto|]| | |];
        right; intros (u & [E|I] & U); try (injection E as ->; lra); try discriminate; apply N; eauto.
  Qed.
  Theorem pixel_right_when : forall shapes r,
    (((render_hit asort shapes r = (PInf, (-1)%Z) /\ no_hit asort shapes r) \/
      (exists t sid, render_hit asort shapes r = (Fin t, sid) /\ first_hit asort shapes r t sid)) <-> none_behind asort shapes r).
  Proof.
    intros shapes r. split.
    - intros H s x0 I X0. destruct (ahead_dec (fst (shape_intersect asort s r))) as [A|A]; auto. right.
      destruct (shape_lengths asort AS s r) as (L1 & L2). pose proof (shape_rows_pos s) as P.
      destruct (nth_error (snd (shape_intersect asort s r)) 0) as [sid0|] eqn:I0; [|apply nth_error_None in I0; lia].
      assert (F : puts_forward asort s r x0 sid0) by (right; split; [apply not_ahead; auto|auto]).
      assert (X1 : x0 = PInf \/ x0 = NaN \/ xleb x0 (Fin 0) = true).
      { destruct x0 as [t| | |]; auto. right; right. cbn. apply rleb_true. apply nth_error_In in X0. apply (not_ahead _ A); auto. }
      destruct X1 as [X1|[X1|X1]]; auto.
      destruct (pixel_exactly shapes r) as [(E & N)|(before & s1 & after & x & sid & -> & P1 & E & L & B & Af)]; [apply (N s x0 sid0); auto|].
      exfalso. assert (X : xleb x (Fin 0) = true).
      { apply in_app_iff in I. destruct I as [I|[->|I]].
        - destruct (B _ _ _ I F) as [->|G]; [discriminate|]. apply xltb_xleb in G. apply (xleb_trans3 _ _ _ G X1).
        - destruct (forward_unique _ _ _ _ _ _ P1 F) as (-> & _). exact X1.
        - destruct (Af _ _ _ I F) as [->|G]; [discriminate|]. apply (xleb_trans3 _ _ _ G X1). }
      destruct H as [(E' & _)|(t & sid' & E' & FH)]; rewrite E in E'; injection E' as -> ->; [discriminate|].
      apply first_hit_pos in FH. cbn in X. apply rleb_true in X. lra.
    - intro NB. assert (FW : forall s x sid, In s shapes -> puts_forward asort s r x sid -> (exists t, x = Fin t /\ 0 < t) \/ x = PInf \/ x = NaN).
      { intros s x sid I [(k & t & -> & T & _)|(N & A & _)]; [left; eauto|]. destruct (NB s x I A) as [(t & J & T)|?]; auto. specialize (N _ J). lra. }
      destruct (pixel_exactly shapes r) as [(E & N)|(before & s1 & after & x & sid & -> & P1 & E & L & B & Af)].
      + left. split; auto. intros i k t sid (s & S & A & _ & T). apply nth_error_In in S. destruct (forward_of s r) as (x & sd & F & _).
        destruct (N _ _ _ S F) as [->| ->]; destruct F as [(k' & t' & X & _)|(M & _)]; try discriminate; apply nth_error_In in A; specialize (M _ A); lra.
      + right. assert (I1 : In s1 (before ++ s1 :: after)) by (apply in_app_iff; right; left; auto).
        destruct P1 as [(k & t & -> & T & A & D & M)|(M & A & D)].
        * exists t, sid. split; auto. exists (length before), k. split.
          { exists s1. rewrite nth_error_app2, Nat.sub_diag by auto. auto. }
          intros i' k' t' sid' (s & S & A' & D' & T'). destruct (forward_of s r) as (y & sd & F & _).
          assert (Q : exists u, y = Fin u /\ u <= t').
          { destruct F as [(k2 & t2 & -> & T2 & A2 & _ & M2)|(M2 & _)].
            - exists t2. split; auto. destruct (M2 _ _ A' T') as [?|[? _]]; lra.
            - apply nth_error_In in A'. specialize (M2 _ A'). lra. }
          destruct Q as (u & -> & Q). destruct (lt_eq_lt_dec i' (length before)) as [[C|C]|C].
          { rewrite nth_error_app1 in S by auto. apply nth_error_In in S. destruct (B _ _ _ S F) as [X|X]; [discriminate|]. cbn in X. apply rltb_true in X. left; lra. }
          { subst i'. rewrite nth_error_app2, Nat.sub_diag in S by auto. cbn in S. injection S as <-.
            destruct (M _ _ A' T') as [?|[? ?]]; auto 6. }
          { rewrite nth_error_app2 in S by lia. destruct (i' - length before)%nat as [|j] eqn:J; [lia|]. cbn in S. apply nth_error_In in S.
            destruct (Af _ _ _ S F) as [X|X]; [discriminate|]. cbn in X. apply rleb_true in X.
            destruct (Req_dec t t'); [right; split; auto|left; lra]. }
        * exfalso. destruct (FW s1 x sid I1) as [(t & -> & T)|[->| ->]]; try discriminate.
          { right. auto. }
          apply nth_error_In in A. specialize (M _ A). lra.
  Qed.
End Pixel.
