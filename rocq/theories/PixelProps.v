(** * PixelProps: the pixels of every picture *)
From Coq Require Import Reals List Bool ZArith Lra Lia Sorted.
Import ListNotations.
From Verif Require Import XR XRFacts Arr ArrFacts Lin LinFacts Prim Csg SpecCsg CsgProps Surf World Tracer Sources SpecGeom SpecTree TreeFacts SpecTrace TraceFacts3 SpecOptics Render SpecRender RenderFacts RenderFacts2 SpecPixels.
Open Scope R_scope.

Lemma before_irrefl : forall x, ~ before x x.
Proof. intros [r| | |]; simpl; auto. lra. Qed.
Lemma before_trans : forall x y z, before x y -> before y z -> before x z.
Proof. intros [a| | |] [b| | |] [c| | |]; simpl; intros; auto; try tauto; lra. Qed.
Lemma before_xltb : forall x y, lies_on_line x -> lies_on_line y -> (xltb x y = true <-> before x y).
Proof.
  intros x y [->|[a ->]] [->|[b ->]]; cbn; split; auto; try discriminate; try tauto; apply rltb_true.
Qed.
Lemma not_before : forall x y, lies_on_line x -> lies_on_line y -> xltb x y = false -> before y x \/ y = x.
Proof.
  intros x y [->|[a ->]] [->|[b ->]]; cbn; auto; try discriminate. intros H. apply rltb_false in H.
  destruct (Rle_lt_or_eq_dec _ _ H); auto. subst; auto.
Qed.
Lemma ahead_on_line : forall x, lies_ahead x -> lies_on_line x.
Proof. intros x (t & -> & T). right; eauto. Qed.

Lemma least_row_unique : forall P hits ids x sid y sid', least_row P hits ids x sid -> least_row P hits ids y sid' -> x = y /\ sid = sid'.
Proof.
  intros P hits ids x sid y sid' (k & H1 & I1 & P1 & L1) (k' & H2 & I2 & P2 & L2).
  destruct (L1 _ _ H2 P2) as [B|[E K]], (L2 _ _ H1 P1) as [B'|[E' K']].
  - elim (before_irrefl x). eapply before_trans; eauto.
  - subst. elim (before_irrefl x); auto.
  - subst. elim (before_irrefl y); auto.
  - assert (k = k') by lia. subst. split; congruence.
Qed.

Section Pixels.
  Variable asort : list xr -> list nat.
  Hypothesis AS : argsort_ok asort.

  Lemma offers_on_line : forall s r x sid, offers asort s r x sid -> lies_on_line x.
  Proof.
    intros s r x sid. unfold offers. destruct (shape_intersect asort s r) as [hs ids].
    intros [(k & _ & _ & P & _)|(_ & k & _ & _ & P & _)]; auto using ahead_on_line.
  Qed.
  Lemma offers_unique : forall s r x sid y sid', offers asort s r x sid -> offers asort s r y sid' -> x = y /\ sid = sid'.
  Proof.
    intros s r x sid y sid'. unfold offers. destruct (shape_intersect asort s r) as [hs ids].
    intros [H|[N H]] [H'|[N' H']]; try (eapply least_row_unique; eauto; fail).
    - destruct H as (k & I & _ & P & _). elim (N' x); auto. eapply nth_error_In; eauto.
    - destruct H' as (k & I & _ & P & _). elim (N y); auto. eapply nth_error_In; eauto.
  Qed.

  (** one component: it makes its offer, or none *)
  Lemma render_shape_offer : forall s r,
    (exists x sid, offers asort s r x sid /\
       forall best, render_shape asort r best s = if xltb x (fst best) then (x, sid) else best) \/
    ((forall x sid, ~ offers asort s r x sid) /\ forall best, render_shape asort r best s = best).
  Proof.
    intros s r. destruct (shape_columns asort AS s r) as (SO & L1 & L2). pose proof (shape_rows_pos s) as P.
    pose proof (shape_nearest asort AS s r) as SN. cbv zeta in SN. unfold offers, render_shape.
    destruct (shape_intersect asort s r) as [hs ids]. cbn [fst snd] in *.
    destruct SN as [(N & NP)|(t & sid & E1 & E2 & T & HK & IK & LE)].
    - assert (NA : forall y, In y hs -> ~ lies_ahead y).
      { intros y Y (t & -> & T). apply In_nth_error in Y. destruct Y as [j J]. specialize (NP _ _ J). lra. }
      assert (K : argmin (map positive_or_inf hs) = O).
      { apply argmin_all_inf. intros x X. apply in_map_iff in X. destruct X as (y & <- & Y). specialize (NA y Y).
        destruct y as [t| | |]; auto. unfold positive_or_inf; simpl. destruct (rltb 0 t) eqn:R; auto. apply rltb_true in R. elim NA. exists t; auto. }
      rewrite K. destruct hs as [|h hs]; [simpl in L1; lia|]. destruct ids as [|id ids]; [simpl in L2; lia|]. cbn [nth].
      assert (LEAST : forall j y, nth_error (h :: hs) j = Some y -> xsle h y = true).
      { intros [|j] y J; simpl in J; [inversion J; apply xsle_refl|]. apply nth_error_In in J.
        inversion SO as [|? ? _ F]; subst. rewrite Forall_forall in F. auto. }
      destruct h as [t| | |].
      + left. exists (Fin t), id. split; [right; split; auto|intros; auto].
        exists O. split; auto. split; auto. split; [right; eauto|]. intros j y J Y. pose proof (LEAST _ _ J) as Q.
        destruct Y as [->|[u ->]]; [discriminate|]. cbn in Q. apply rleb_true in Q. cbn. destruct (Rle_lt_or_eq_dec _ _ Q); auto. subst. right; split; auto. lia.
      + right. split.
        * intros x sid [(k & I & _ & A & _)|(_ & k & I & _ & A & _)]; [apply ahead_on_line in A|];
            apply LEAST in I; destruct A as [->|[u ->]]; discriminate.
        * intros best. replace (xltb PInf (fst best)) with false by (destruct (fst best); auto). auto.
      + left. exists MInf, id. split; [right; split; auto|intros; auto].
        exists O. split; auto. split; auto. split; [left; auto|]. intros j y J Y.
        destruct Y as [->|[u ->]]; [right; split; auto; lia|left; cbn; auto].
      + right. split.
        * intros x sid [(k & I & _ & A & _)|(_ & k & I & _ & A & _)]; [apply ahead_on_line in A|];
            apply LEAST in I; destruct A as [->|[u ->]]; discriminate.
        * intros best. replace (xltb NaN (fst best)) with false by (destruct (fst best); auto). auto.
    - left. exists (Fin t), sid. split.
      + left. exists (argmin (map positive_or_inf hs)). split; auto. split; auto. split; [exists t; auto|].
        intros j y J (u & -> & U). destruct (LE _ _ J U) as [Q|[-> Q]]; [left; auto|right; auto].
      + intros best. rewrite E2. rewrite (nth_error_nth _ _ PInf HK). auto.
  Qed.

  Theorem pixel_shows : forall shapes r, pixel_rule asort shapes r (render_hit asort shapes r).
  Proof.
    intros shapes r. induction shapes as [|s shapes IH] using rev_ind.
    - left. split; auto.
    - unfold render_hit. rewrite fold_left_app. cbn [fold_left]. fold (render_hit asort shapes r).
      destruct (render_shape_offer s r) as [(x & sid & O & E)|[N E]]; rewrite E; clear E.
      + pose proof (offers_on_line _ _ _ _ O) as X. destruct IH as [[-> NO]|(i & s0 & y & sid0 & I & O0 & -> & LE)]; cbn [fst].
        * assert (xltb x PInf = true) as -> by (destruct X as [->|[u ->]]; auto).
          right. exists (length shapes), s, x, sid. split; [rewrite nth_error_app2, Nat.sub_diag by lia; auto|]. split; auto. split; auto.
          intros j s' y sid' J O'. destruct (Nat.lt_ge_cases j (length shapes)) as [L|L].
          { rewrite nth_error_app1 in J by auto. elim (NO s' y sid'); auto. eapply nth_error_In; eauto. }
          { rewrite nth_error_app2 in J by auto. destruct (j - length shapes)%nat as [|k] eqn:K; simpl in J; [|destruct k; discriminate].
            inversion J; subst s'. destruct (offers_unique _ _ _ _ _ _ O O') as [-> ->]. right. split; auto. }
        * pose proof (offers_on_line _ _ _ _ O0) as Y. assert (IL : (i < length shapes)%nat) by (apply nth_error_Some; congruence).
          right. destruct (xltb x y) eqn:LT.
          { apply before_xltb in LT; auto.
            exists (length shapes), s, x, sid. split; [rewrite nth_error_app2, Nat.sub_diag by lia; auto|]. split; auto. split; auto.
            intros j s' z sid' J O'. destruct (Nat.lt_ge_cases j (length shapes)) as [L|L].
            - rewrite nth_error_app1 in J by auto. left. destruct (LE _ _ _ _ J O') as [B|[<- _]]; auto. eapply before_trans; eauto.
            - rewrite nth_error_app2 in J by auto. destruct (j - length shapes)%nat as [|k] eqn:K; simpl in J; [|destruct k; discriminate].
              inversion J; subst s'. destruct (offers_unique _ _ _ _ _ _ O O') as [-> ->]. right. split; auto. }
          { exists i, s0, y, sid0. split; [rewrite nth_error_app1; auto|]. split; auto. split; auto.
            intros j s' z sid' J O'. destruct (Nat.lt_ge_cases j (length shapes)) as [L|L].
            - rewrite nth_error_app1 in J by auto. eauto.
            - rewrite nth_error_app2 in J by auto. destruct (j - length shapes)%nat as [|k] eqn:K; simpl in J; [|destruct k; discriminate].
              inversion J; subst s'. destruct (offers_unique _ _ _ _ _ _ O O') as [-> ->].
              destruct (not_before _ _ X Y LT) as [B|B]; auto. right. split; auto. lia. }
      + destruct IH as [[-> NO]|(i & s0 & y & sid0 & I & O0 & -> & LE)].
        * left. split; auto. intros s' x sid J. apply in_app_or in J. destruct J as [J|[<-|[]]]; auto.
        * right. assert (IL : (i < length shapes)%nat) by (apply nth_error_Some; congruence).
          exists i, s0, y, sid0. split; [rewrite nth_error_app1; auto|]. split; auto. split; auto.
          intros j s' z sid' J O'. destruct (Nat.lt_ge_cases j (length shapes)) as [L|L].
          { rewrite nth_error_app1 in J by auto. eauto. }
          { rewrite nth_error_app2 in J by auto. destruct (j - length shapes)%nat as [|k] eqn:K; simpl in J; [|destruct k; discriminate].
            inversion J; subst s'. elim (N z sid'); auto. }
  Qed.
  (** the rule decides the pixel *)
  Theorem pixel_rule_unique : forall shapes r p q, pixel_rule asort shapes r p -> pixel_rule asort shapes r q -> p = q.
  Proof.
    intros shapes r p q [[-> N]|(i & s & x & sid & I & O & -> & LE)] [[-> N']|(i' & s' & x' & sid' & I' & O' & -> & LE')]; auto.
    - elim (N s' x' sid'); auto. eapply nth_error_In; eauto.
    - elim (N' s x sid); auto. eapply nth_error_In; eauto.
    - destruct (LE _ _ _ _ I' O') as [B|[E K]], (LE' _ _ _ _ I O) as [B'|[E' K']].
      + elim (before_irrefl x). eapply before_trans; eauto.
      + subst. elim (before_irrefl x); auto.
      + subst. elim (before_irrefl x'); auto.
      + assert (i = i') by lia. subst. rewrite I' in I. inversion I; subst. destruct (offers_unique _ _ _ _ _ _ O O') as [_ ->]. auto.
  Qed.

  Lemma behind_offer : forall s r, wholly_behind asort s r -> exists x sid, offers asort s r x sid /\ ~ lies_ahead x.
  Proof.
    intros s r [(x & X & XL) NA]. destruct (render_shape_offer s r) as [(y & sid & O & _)|[_ E]].
    - exists y, sid. split; auto. revert O. unfold offers. destruct (shape_intersect asort s r) as [hs ids]. cbn [fst] in *.
      intros [(k & I & _ & P & _)|(_ & k & I & _ & P & _)]; apply nth_error_In in I; auto.
    - exfalso. specialize (E (PInf, (-1)%Z)). revert E. unfold render_shape.
      destruct (shape_columns asort AS s r) as (SO & L1 & L2). destruct (shape_intersect asort s r) as [hs ids]. cbn [fst snd] in *.
      rewrite argmin_all_inf.
      2:{ intros z Z. apply in_map_iff in Z. destruct Z as (y & <- & Y). specialize (NA y Y).
        destruct y as [t| | |]; auto. unfold positive_or_inf; simpl. destruct (rltb 0 t) eqn:R; auto. apply rltb_true in R. elim NA. exists t; auto. }
      destruct hs as [|h hs]; [contradiction|]. cbn [nth]. inversion SO as [|? ? _ F]; subst. rewrite Forall_forall in F.
      assert (Q : xsle h x = true) by (destruct X as [->|X]; [apply xsle_refl|auto]).
      destruct h as [t| | |]; cbn [xltb fst]; try discriminate; destruct XL as [->|[u ->]]; discriminate.
  Qed.
  (** a component wholly behind the camera takes the pixel from everything ahead *)
  Theorem behind_takes_pixel : forall shapes r s, In s shapes -> wholly_behind asort s r ->
    exists x sid, render_hit asort shapes r = (x, sid) /\ lies_on_line x /\ ~ lies_ahead x.
  Proof.
    intros shapes r s I W. destruct (behind_offer s r W) as (y & sid & O & NA). apply In_nth_error in I. destruct I as [j J].
    destruct (pixel_shows shapes r) as [[_ N]|(i & s0 & x & sid0 & I & O0 & E & LE)].
    - elim (N s y sid); auto. eapply nth_error_In; eauto.
    - exists x, sid0. split; auto. split; [eapply offers_on_line; eauto|]. intros (t & -> & T).
      destruct (LE _ _ _ _ J O) as [B|[<- _]]; [|elim NA; exists t; auto].
      pose proof (offers_on_line _ _ _ _ O) as [->|[u ->]]; simpl in B; auto. apply NA. exists u. split; auto. lra.
  Qed.
  Lemma nothing_behind_wholly : forall shapes r, nothing_behind asort shapes r <-> forall s, In s shapes -> ~ wholly_behind asort s r.
  Proof.
    intros shapes r. split; intros H s S.
    - intros [(x & X & XL) NA]. destruct (H s S) as [(t & T & P)|N]; [elim (NA _ T); exists t; auto|].
      destruct (N x X) as [->| ->]; destruct XL as [E|[u E]]; discriminate.
    - specialize (H s S).
      destruct (render_shape_offer s r) as [(y & sid & O & _)|[N _]].
      + left. assert (A : lies_ahead y /\ In y (fst (shape_intersect asort s r))).
        { revert O H. unfold offers, wholly_behind. destruct (shape_intersect asort s r) as [hs ids]. cbn [fst].
          intros [(k & I & _ & P & _)|(NA & k & I & _ & P & _)] H; apply nth_error_In in I; auto. elim H. split; eauto. }
        destruct A as [(t & -> & T) I]. eauto.
      + right. intros x X. destruct x as [t| | |]; auto; exfalso.
        * apply H. split; [exists (Fin t); split; auto; right; eauto|]. intros y Y A.
          pose proof (shape_nearest asort AS s r) as SN. cbv zeta in SN.
          destruct SN as [(_ & NP)|(u & sid & E1 & E2 & U & HK & IK & LE)].
          { destruct A as (v & -> & V). apply In_nth_error in Y. destruct Y as [j J]. specialize (NP _ _ J). lra. }
          { apply (N (Fin u) sid). unfold offers. destruct (shape_intersect asort s r) as [hs ids]. cbn [fst snd] in *. left.
            eexists. split; [exact HK|]. split; [exact IK|]. split; [exists u; auto|]. intros j z J (v & -> & V). destruct (LE _ _ J V) as [Q|[-> Q]]; [left; auto|right; auto]. }
        * apply H. split; [exists MInf; split; auto; left; auto|]. intros y Y A.
          pose proof (shape_nearest asort AS s r) as SN. cbv zeta in SN.
          destruct SN as [(_ & NP)|(u & sid & E1 & E2 & U & HK & IK & LE)].
          { destruct A as (v & -> & V). apply In_nth_error in Y. destruct Y as [j J]. specialize (NP _ _ J). lra. }
          { apply (N (Fin u) sid). unfold offers. destruct (shape_intersect asort s r) as [hs ids]. cbn [fst snd] in *. left.
            eexists. split; [exact HK|]. split; [exact IK|]. split; [exists u; auto|]. intros j z J (v & -> & V). destruct (LE _ _ J V) as [Q|[-> Q]]; [left; auto|right; auto]. }
  Qed.
  (** the tracer's answer is ahead, or infinite *)
  Lemma propagate_ahead : forall shapes c, lies_ahead (fst (propagate asort shapes c)) \/ fst (propagate asort shapes c) = PInf.
  Proof.
    intros shapes c. unfold propagate. assert (G : forall best, lies_ahead (fst best) \/ fst best = PInf ->
      lies_ahead (fst (fold_left (propagate_shape asort (c_ray c)) shapes best)) \/ fst (fold_left (propagate_shape asort (c_ray c)) shapes best) = PInf).
    { induction shapes as [|s shapes IH]; intros best B; cbn [fold_left]; auto. apply IH.
      unfold propagate_shape. pose proof (shape_nearest asort AS s (c_ray c)) as SN. cbv zeta in SN.
      destruct (shape_intersect asort s (c_ray c)) as [hs ids]. cbn [fst snd] in SN.
      destruct SN as [(-> & _)|(t & sid & -> & -> & T & _)].
      - destruct (xltb PInf (fst best)); auto.
      - destruct (xltb (Fin t) (fst best)); auto. left. exists t; auto. }
    apply G. auto.
  Qed.
  Theorem same_as_tracer_iff : forall shapes c,
    render_hit asort shapes (c_ray c) = propagate asort shapes c <-> forall s, In s shapes -> ~ wholly_behind asort s (c_ray c).
  Proof.
    intros shapes c. rewrite <- nothing_behind_wholly. split; [|apply render_same; auto].
    intros E. apply nothing_behind_wholly. intros s S W. destruct (behind_takes_pixel shapes (c_ray c) s S W) as (x & sid & F & L & NA).
    pose proof (propagate_ahead shapes c) as Q. rewrite <- E, F in Q. cbn [fst] in Q. destruct Q as [Q|Q]; auto. subst. destruct L as [L|[u L]]; discriminate.
  Qed.
End Pixels.
