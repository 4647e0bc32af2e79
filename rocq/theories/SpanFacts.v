(** * SpanFacts: combining the spans of two bounding boxes *)
From Coq Require Import Reals List Bool ZArith Permutation Sorted Lra Lia.
Import ListNotations.
From Verif Require Import XR XRFacts Arr ArrFacts Csg SpecCsg CsgFacts CsgProps Lin Prim Surf SpecGeom SpecTree PrimFacts PrimFacts2.
Open Scope R_scope.

Lemma perm4 : forall p, Permutation p [0; 1; 2; 3]%nat ->
  exists a b c d, p = [a; b; c; d] /\ NoDup [a; b; c; d] /\
    In a [0; 1; 2; 3]%nat /\ In b [0; 1; 2; 3]%nat /\ In c [0; 1; 2; 3]%nat /\ In d [0; 1; 2; 3]%nat.
Proof.
  intros p P. pose proof (Permutation_length P) as L.
  destruct p as [|a [|b [|c [|d [|e p]]]]]; try discriminate.
  exists a, b, c, d. split; auto. split.
  - eapply Permutation_NoDup; [symmetry; exact P|]. repeat constructor; simpl; intuition discriminate.
  - repeat split; eapply Permutation_in; try exact P; simpl; auto.
Qed.

Section Combine.
  Variable asort : list xr -> list nat.
  Hypothesis AS : argsort_ok asort.

  (** enumerate the orders np.argsort may leave *)
  Ltac enum x0 x1 y0 y1 :=
    destruct (AS [x0; x1; y0; y1]) as [P S]; simpl (seq _ _) in P;
    apply perm4 in P; destruct P as (a & b & c & d & EP & ND & Ia & Ib & Ic & Id);
    unfold combine_span, array_csg, array_csg_unsorted; cbn [fst snd app length];
    rewrite EP in S |- *; clear EP;
    inversion ND as [|? ? N1 ND1]; subst; inversion ND1 as [|? ? N2 ND2]; subst;
    inversion ND2 as [|? ? N3 ND3]; subst; clear ND ND1 ND2 ND3;
    unfold gather in S; cbn [map] in S;
    apply StronglySorted_inv in S; destruct S as [S F1];
    apply StronglySorted_inv in S; destruct S as [S F2];
    apply StronglySorted_inv in S; destruct S as [S F3]; clear S;
    rewrite Forall_forall in F1, F2, F3;
    assert (O1 := F1 _ (or_introl eq_refl)); assert (O2 := F2 _ (or_introl eq_refl));
    assert (O3 := F3 _ (or_introl eq_refl)); clear F1 F2 F3;
    simpl in Ia; destruct Ia as [<-|[<-|[<-|[<-|[]]]]];
    simpl in Ib; destruct Ib as [<-|[<-|[<-|[<-|[]]]]]; try (exfalso; apply N1; simpl; tauto);
    simpl in Ic; destruct Ic as [<-|[<-|[<-|[<-|[]]]]];
      try (exfalso; apply N1; simpl; tauto); try (exfalso; apply N2; simpl; tauto);
    simpl in Id; destruct Id as [<-|[<-|[<-|[<-|[]]]]];
      try (exfalso; apply N1; simpl; tauto); try (exfalso; apply N2; simpl; tauto);
      try (exfalso; apply N3; simpl; tauto);
    clear N1 N2 N3; cbn [nth] in O1, O2, O3; cbn [xsle xleb] in O1, O2, O3; try discriminate; rhyps;
    try (exfalso; lra).

  Ltac keep :=
    match goal with |- context [csg_keep ?op ?n ?p] =>
      let k := eval vm_compute in (csg_keep op n p) in change (csg_keep op n p) with k end;
    cbv [combine fst snd where_fill gather nth map sort_by insert_by xsle xleb sort2].

  Lemma union_overlap : forall a0 a1 b0 b1, a0 <= a1 -> b0 <= b1 ->
    Rmax a0 b0 < Rmin a1 b1 ->
    combine_span asort UNION (Fin a0, Fin a1) (Fin b0, Fin b1) = (Fin (Rmin a0 b0), Fin (Rmax a1 b1)).
  Proof.
    intros a0 a1 b0 b1 Ha Hb Ov.
    assert (a0 < b1 /\ b0 < a1 /\ a0 < a1 /\ b0 < b1).
    { pose proof (Rmax_l a0 b0); pose proof (Rmax_r a0 b0); pose proof (Rmin_l a1 b1); pose proof (Rmin_r a1 b1). lra. }
    enum (Fin a0) (Fin a1) (Fin b0) (Fin b1);
    keep;
    rcases; unfold Rmin, Rmax; repeat destruct (Rle_dec _ _); try (f_equal; f_equal; lra); exfalso; lra.
  Qed.

  Lemma inter_overlap : forall a0 a1 b0 b1, a0 <= a1 -> b0 <= b1 ->
    Rmax a0 b0 < Rmin a1 b1 ->
    combine_span asort INTERSECT (Fin a0, Fin a1) (Fin b0, Fin b1) = (Fin (Rmax a0 b0), Fin (Rmin a1 b1)).
  Proof.
    intros a0 a1 b0 b1 Ha Hb Ov.
    assert (a0 < b1 /\ b0 < a1 /\ a0 < a1 /\ b0 < b1).
    { pose proof (Rmax_l a0 b0); pose proof (Rmax_r a0 b0); pose proof (Rmin_l a1 b1); pose proof (Rmin_r a1 b1). lra. }
    enum (Fin a0) (Fin a1) (Fin b0) (Fin b1);
    keep;
    rcases; unfold Rmin, Rmax; repeat destruct (Rle_dec _ _); try (f_equal; f_equal; lra); exfalso; lra.
  Qed.

  Lemma inter_apart : forall a0 a1 b0 b1, a0 <= a1 -> b0 <= b1 ->
    Rmin a1 b1 < Rmax a0 b0 ->
    combine_span asort INTERSECT (Fin a0, Fin a1) (Fin b0, Fin b1) = (PInf, PInf).
  Proof.
    intros a0 a1 b0 b1 Ha Hb Ov.
    assert (a1 < b0 \/ b1 < a0) as [D|D].
    { unfold Rmin, Rmax in Ov. repeat destruct (Rle_dec _ _); lra. }
    all: enum (Fin a0) (Fin a1) (Fin b0) (Fin b1); reflexivity.
  Qed.

  (** two separated intervals: the union's span is the first one only *)
  Lemma union_apart : forall a0 a1 b0 b1, a0 < a1 -> a1 < b0 -> b0 < b1 ->
    combine_span asort UNION (Fin a0, Fin a1) (Fin b0, Fin b1) = (Fin a0, Fin a1).
  Proof.
    intros a0 a1 b0 b1 H1 H2 H3.
    enum (Fin a0) (Fin a1) (Fin b0) (Fin b1);
    keep;
    rcases; auto; exfalso; lra.
  Qed.

  Lemma union_apart_r : forall a0 a1 b0 b1, b0 < b1 -> b1 < a0 -> a0 < a1 ->
    combine_span asort UNION (Fin a0, Fin a1) (Fin b0, Fin b1) = (Fin b0, Fin b1).
  Proof.
    intros a0 a1 b0 b1 H1 H2 H3.
    enum (Fin a0) (Fin a1) (Fin b0) (Fin b1);
    keep;
    rcases; auto; exfalso; lra.
  Qed.

  Lemma union_empty_l : forall b0 b1, b0 <= b1 ->
    combine_span asort UNION (PInf, PInf) (Fin b0, Fin b1) = (Fin b0, Fin b1).
  Proof.
    intros b0 b1 Hb. enum PInf PInf (Fin b0) (Fin b1);
    keep;
    rcases; try (f_equal; f_equal; lra); exfalso; lra.
  Qed.
  Lemma union_empty_r : forall a0 a1, a0 <= a1 ->
    combine_span asort UNION (Fin a0, Fin a1) (PInf, PInf) = (Fin a0, Fin a1).
  Proof.
    intros a0 a1 Ha. enum (Fin a0) (Fin a1) PInf PInf;
    keep;
    rcases; try (f_equal; f_equal; lra); exfalso; lra.
  Qed.
  Lemma both_empty : forall op, op <> DIFFERENCE ->
    combine_span asort op (PInf, PInf) (PInf, PInf) = (PInf, PInf).
  Proof. intros [| |] H; [| |congruence]; enum PInf PInf PInf PInf; reflexivity. Qed.
  Lemma inter_empty_l : forall b0 b1,
    combine_span asort INTERSECT (PInf, PInf) (Fin b0, Fin b1) = (PInf, PInf).
  Proof. intros b0 b1. enum PInf PInf (Fin b0) (Fin b1); reflexivity. Qed.
  Lemma inter_empty_r : forall b0 b1,
    combine_span asort INTERSECT (Fin b0, Fin b1) (PInf, PInf) = (PInf, PInf).
  Proof. intros b0 b1. enum (Fin b0) (Fin b1) PInf PInf; reflexivity. Qed.

  Lemma combine_span_sound : forall op a b, op <> DIFFERENCE -> vspan a -> vspan b -> span_fits op a b ->
    vspan (combine_span asort op a b) /\
    forall x, match op with
              | UNION => in_span a x \/ in_span b x
              | _ => in_span a x /\ in_span b x
              end -> in_span (combine_span asort op a b) x.
  Proof.
    intros op a b Hop [(a0 & a1 & -> & Ha)| ->] [(b0 & b1 & -> & Hb)| ->] F.
    - destruct op; [| |congruence].
      + destruct F as [F|[F|F]]; [|discriminate F|discriminate F].
        unfold overlapping in F. cbn [fst snd] in F. rewrite xmax_fin, xmin_fin in F. cbn [xltb] in F. rhyps.
        rewrite union_overlap by auto. split.
        * left. exists (Rmin a0 b0), (Rmax a1 b1). split; auto.
          pose proof (Rmin_l a0 b0); pose proof (Rmax_l a1 b1); lra.
        * intros x. unfold in_span; cbn [fst snd xleb]. rewrite !rleb_true.
          pose proof (Rmin_l a0 b0); pose proof (Rmax_l a1 b1); pose proof (Rmin_r a0 b0); pose proof (Rmax_r a1 b1). lra.
      + destruct F as [F|[F|[F _]]]; [| |discriminate F].
        * unfold overlapping in F. cbn [fst snd] in F. rewrite xmax_fin, xmin_fin in F. cbn [xltb] in F. rhyps.
          rewrite inter_overlap by auto. split.
          -- left. exists (Rmax a0 b0), (Rmin a1 b1). split; auto. lra.
          -- intros x. unfold in_span; cbn [fst snd xleb]. rewrite !rleb_true.
             intros [[] []]. split; [apply Rmax_lub|apply Rmin_glb]; auto.
        * unfold apart in F. cbn [fst snd] in F. rewrite xmax_fin, xmin_fin in F. cbn [xltb] in F. rhyps.
          rewrite inter_apart by auto. split; [right; auto|].
          intros x. unfold in_span; cbn [fst snd xleb]. rewrite !rleb_true.
          intros [[] []]. exfalso. unfold Rmin, Rmax in F. repeat destruct (Rle_dec _ _); lra.
    - destruct op; [| |congruence].
      + rewrite union_empty_r by auto. split; [left; eauto|]. intros x [H|[H _]]; [auto|discriminate].
      + rewrite inter_empty_r. split; [right; auto|]. intros x [_ [H _]]. discriminate.
    - destruct op; [| |congruence].
      + rewrite union_empty_l by auto. split; [left; eauto|]. intros x [[H _]|H]; [discriminate|auto].
      + rewrite inter_empty_l. split; [right; auto|]. intros x [[H _] _]. discriminate.
    - rewrite both_empty by auto. split; [right; auto|]. intros x.
      destruct op; [intros [[H _]|[H _]]|intros [[H _] _]|congruence]; discriminate.
  Qed.

  Lemma csg_box_sound : forall op a b, vbox a -> vbox b -> box_fits op a b ->
    vbox (csg_box asort op a b) /\
    forall q, match op with
              | UNION => in_box a q \/ in_box b q
              | INTERSECT => in_box a q /\ in_box b q
              | DIFFERENCE => in_box a q
              end -> in_box (csg_box asort op a b) q.
  Proof.
    intros op a b (Ax & Ay & Az) (Bx & By & Bz) (Fx & Fy & Fz).
    destruct op; cbn [csg_box].
    - destruct (combine_span_sound UNION _ _ ltac:(discriminate) Ax Bx Fx) as [Vx Cx].
      destruct (combine_span_sound UNION _ _ ltac:(discriminate) Ay By Fy) as [Vy Cy].
      destruct (combine_span_sound UNION _ _ ltac:(discriminate) Az Bz Fz) as [Vz Cz].
      split; [repeat split; auto|]. intros q H. unfold in_box in *; cbn [spanx spany spanz].
      destruct H as [(?&?&?)|(?&?&?)]; auto.
    - destruct (combine_span_sound INTERSECT _ _ ltac:(discriminate) Ax Bx Fx) as [Vx Cx].
      destruct (combine_span_sound INTERSECT _ _ ltac:(discriminate) Ay By Fy) as [Vy Cy].
      destruct (combine_span_sound INTERSECT _ _ ltac:(discriminate) Az Bz Fz) as [Vz Cz].
      split; [repeat split; auto|]. intros q H. unfold in_box in *; cbn [spanx spany spanz].
      destruct H as [(?&?&?) (?&?&?)]; auto.
    - split; [repeat split; auto|auto].
  Qed.
End Combine.

(** ** Missing a valid box *)
Lemma box_hit_false_point : forall b r, vbox b -> moving r -> clear_dir r ->
  box_hit b r = false -> forall t t', in_box b (ray_at r t) -> in_box b (ray_at r t') -> t = t'.
Proof.
  intros [sx sy sz] r (Vx & Vy & Vz) M (Cx & Cy & Cz) H t t' I I'.
  unfold in_box in *; cbn [spanx spany spanz] in *.
  destruct Vx as [(x0 & x1 & -> & Hx)| ->]; [|destruct I as [[D _] _]; discriminate].
  destruct Vy as [(y0 & y1 & -> & Hy)| ->]; [|destruct I as [_ [[D _] _]]; discriminate].
  destruct Vz as [(z0 & z1 & -> & Hz)| ->]; [|destruct I as [_ [_ [D _]]]; discriminate].
  unfold box_hit in H.
  destruct (cube_hits_exact x0 x1 y0 y1 z0 z1 r Hx Hy Hz M Cx Cy Cz) as [(t0 & t1 & E & _)|[E Q]];
    unfold fin_box in E; rewrite E in H; [discriminate|].
  unfold in_span in *; cbn [fst snd xleb] in *. rewrite !rleb_true in *. apply Q; tauto.
Qed.

(** a ray that goes nowhere hits no box *)
Lemma box_hit_still : forall b r, vx (direction r) = 0 -> vy (direction r) = 0 -> vz (direction r) = 0 ->
  box_hit b r = false.
Proof.
  intros [sx sy sz] [o [dx dy dz dw]]; unfold box_hit, cube_hits; cbn [direction origin vx vy vz spanx spany spanz].
  intros -> -> ->.
  assert (K : forall s o, cube_axis_hits s o 0 = (MInf, PInf) \/ cube_axis_hits s o 0 = (PInf, PInf)).
  { intros [lo hi] o'. unfold cube_axis_hits. rewrite isclose0_0. simpl negb. cbv iota.
    destruct (_ && _)%bool; auto. }
  destruct (K sx (vx o)) as [-> | ->], (K sy (vy o)) as [-> | ->], (K sz (vz o)) as [-> | ->]; reflexivity.
Qed.
