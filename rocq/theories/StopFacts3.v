(** * StopFacts3: the rays a stop absorbs and those it lets by *)
From Coq Require Import Reals Lra Lia List Bool ZArith Psatz.
Import ListNotations.
From Verif Require Import XR XRFacts Arr Lin LinFacts Prim PrimFacts2 Csg Surf SpecGeom SpecTree TreeFacts BoxFacts SurfFacts CsgProps World SpecWorld
  WorldFacts3 WorldFacts5 Tracer Components SpecComponents BuildFacts ComponentFacts ComponentFacts2 ComponentFacts4 ComponentOptics SpecStop StopFacts StopFacts2.
Open Scope R_scope.

Section Stop.
  Variables (asort : list xr -> list nat) (a b : R) (op : aperture_arg) (s : shape) (p : prim).
  Hypotheses (AS : argsort_ok asort) (A : 0 <= a) (B : 0 <= b) (O : ap_ok op) (Ep : create_aperture op (1 / 10) = Some p).
  Hypotheses (ES : erase s = mv rx_90 (mv ry90 (stop_tree a b p))) (TO : tree_ok s) (BC : boxes_current s).
  Variables (c : col) (x y z dx dy dz : R).
  Hypothesis R : c_ray c = Ray (pt x y z) (V4 dx dy dz 0).
  Hypothesis CT : clear_towards op (V4 dx dy dz 0).

  Lemma around : forall q, x + q * dx = 0 -> in_open_aperture op (0, 0) (y + q * dy) (z + q * dz) -> exists e, 0 < e /\
    forall u, Rabs u <= e -> in_aperture op (0, 0) (y + (q + u) * dy) (z + (q + u) * dz) /\ - (1 / 20) <= x + (q + u) * dx <= 1 / 20.
  Proof.
    intros q X I. destruct (near_and _ _ (near_aperture op (0, 0) (y + q * dy) (z + q * dz) dy dz I)
      (near_and _ _ (near_line 0 dx (1 / 20) ltac:(lra)) (near_line' 0 dx (- (1 / 20)) ltac:(lra)))) as (e & E & N).
    exists e. split; [exact E|]. intros u U. specialize (N u U). cbv beta in N. destruct N as (N & N1 & N2).
    replace (y + (q + u) * dy) with (y + q * dy + u * dy) by ring. replace (z + (q + u) * dz) with (z + q * dz + u * dz) by ring.
    split; [exact N|]. split; nra.
  Qed.

  Section Moving.
  Hypothesis MV : ~ (dx = 0 /\ dy = 0 /\ dz = 0).
  Lemma stop_cases : keeps_ties asort -> let_by asort s c \/
    exists q, 0 < q /\ absorbed_at asort s c q /\ x + q * dx = 0 /\ in_aperture (Pair a b) (0, 0) (y + q * dy) (z + q * dz) /\
      ~ in_open_aperture op (0, 0) (y + q * dy) (z + q * dz).
  Proof.
    intro KT. destruct (stop_parts a b s p ES TO BC) as (i & bx & f & bf & g & bg & E & PF & MF & OF & KF & Eb & PG & OG & KG).
    rewrite E. destruct (box_hit bx (c_ray c)) eqn:BH.
    2:{ left. eapply nothing_hit; [cbn [shape_intersect]; rewrite BH; reflexivity|]. cbn. repeat constructor. }
    assert (SI : forall lh rh, surf_hits f (c_ray c) = lh -> surf_hits g (c_ray c) = rh ->
      shape_intersect asort (Node i DIFFERENCE bx (Leaf f bf) (Leaf g bg)) (c_ray c) = csg_combine PInf asort DIFFERENCE lh [s_id f; s_id f] rh [s_id g; s_id g]).
    { intros lh rh <- <-. cbn [shape_intersect]. rewrite BH. reflexivity. }
    assert (NO : forall lh rh, surf_hits f (c_ray c) = lh -> surf_hits g (c_ray c) = rh ->
      Forall (eq PInf) (fst (csg_combine PInf asort DIFFERENCE lh [s_id f; s_id f] rh [s_id g; s_id g])) ->
      let_by asort (Node i DIFFERENCE bx (Leaf f bf) (Leaf g bg)) c).
    { intros lh rh L Rr F. eapply nothing_hit; [rewrite (SI _ _ L Rr); apply surjective_pairing|exact F]. }
    assert (RW : vw (origin (c_ray c)) = 1 /\ vw (direction (c_ray c)) = 0) by (rewrite R; split; reflexivity). destruct RW as [RW RW'].
    destruct (cutter_column a op p O Ep c x y z dx dy dz R CT MV g PG OG KG) as [(u & v & HG & L & S)|[HG S]];
    (destruct (stop_plane a b op A B c x y z dx dy dz R CT MV f PF OF) as [[HF N]|(t & HF & X & I)]).
    - left. apply (NO _ _ HF HG), (column_none asort AS KT); [apply rleb_true; lra|discriminate|discriminate].
    - assert (YES : csg_combine PInf asort DIFFERENCE [Fin t; Fin t] [s_id f; s_id f] [Fin u; Fin v] [s_id g; s_id g] = ([Fin t; Fin t; PInf; PInf], [s_id f; s_id f; s_id g; s_id g]) ->
        ~ in_open_aperture op (0, 0) (y + t * dy) (z + t * dz) -> let_by asort (Node i DIFFERENCE bx (Leaf f bf) (Leaf g bg)) c \/
        exists q, 0 < q /\ absorbed_at asort (Node i DIFFERENCE bx (Leaf f bf) (Leaf g bg)) c q /\ x + q * dx = 0 /\ in_aperture (Pair a b) (0, 0) (y + q * dy) (z + q * dz) /\
        ~ in_open_aperture op (0, 0) (y + q * dy) (z + q * dz)).
      { intros CC NI. assert (SS := SI _ _ HF HG). rewrite CC in SS. destruct (first_of asort _ c t _ [PInf; PInf] _ SS) as [P1 P2]; [repeat constructor|].
        destruct (Rle_dec t 0) as [T|T]; [left; auto|]. right. exists t. split; [lra|]. split; [|auto].
        apply (stopped asort _ c t f); auto; [apply P1; lra|]. left. reflexivity. }
      destruct (Rle_dec t u) as [T|T]; [|destruct (Rle_dec t v) as [T'|T']].
      + apply YES; [apply (column_fst asort AS KT); apply rleb_true; lra|]. intro J. destruct (around t X J) as (e & E0 & N).
        specialize (N (- e)). rewrite Rabs_Ropp, Rabs_right in N by lra. apply S in N; lra.
      + left. apply (NO _ _ HF HG), (column_mid asort AS KT); lra.
      + apply YES; [apply (column_last asort AS KT); lra|]. intro J. destruct (around t X J) as (e & E0 & N).
        specialize (N 0). rewrite Rabs_R0 in N. replace (t + 0) with t in N by ring. apply S in N; lra.
    - left. apply (NO _ _ HF HG), (column_none asort AS KT); [reflexivity|discriminate|discriminate].
    - assert (CC := column_fst asort AS KT t PInf PInf (s_id f) (s_id g) eq_refl eq_refl).
      assert (SS := SI _ _ HF HG). rewrite CC in SS. destruct (first_of asort _ c t _ [PInf; PInf] _ SS) as [P1 P2]; [repeat constructor|].
      destruct (Rle_dec t 0) as [T|T]; [left; auto|]. right. exists t. split; [lra|]. split; [|split; [exact X|split; [exact I|]]].
      + apply (stopped asort _ c t f); auto; [apply P1; lra|]. left. reflexivity.
      + intro J. destruct (around t X J) as (e & E0 & N). assert (Q : t + e = t + - e); [|lra].
        apply S; apply N; [rewrite Rabs_right|rewrite Rabs_Ropp, Rabs_right]; lra.
  Qed.
  End Moving.

  Hypothesis DN : dx <> 0.
  Lemma stop_moving : ~ (dx = 0 /\ dy = 0 /\ dz = 0).
  Proof. intros (E & _). contradiction. Qed.
  Lemma one_crossing : forall q q', x + q * dx = 0 -> x + q' * dx = 0 -> q = q'.
  Proof. intros q q' E E'. apply (Rmult_eq_reg_r dx); [lra|exact DN]. Qed.
  Lemma stop_absorbs : keeps_ties asort -> forall q, 0 < q -> x + q * dx = 0 ->
    in_open_aperture (Pair a b) (0, 0) (y + q * dy) (z + q * dz) -> ~ in_aperture op (0, 0) (y + q * dy) (z + q * dz) -> absorbed_at asort s c q.
  Proof.
    intros KT q Q X I NI. destruct (stop_parts a b s p ES TO BC) as (i & bx & f & bf & g & bg & E & PF & MF & OF & KF & Eb & PG & OG & KG).
    rewrite E. pose proof stop_moving as MV. pose proof (stop_box a b op A B c x y z dx dy dz R CT MV f q PF OF KF X I) as BH. rewrite <- Eb in BH.
    assert (HF : surf_hits f (c_ray c) = [Fin q; Fin q]).
    { destruct (stop_plane a b op A B c x y z dx dy dz R CT MV f PF OF) as [[_ N]|(t & HF & X' & _)].
      - exfalso. apply (N DN q X). apply open_aperture. exact I.
      - rewrite (one_crossing q t X X'). exact HF. }
    assert (RW : vw (origin (c_ray c)) = 1 /\ vw (direction (c_ray c)) = 0) by (rewrite R; split; reflexivity). destruct RW as [RW RW'].
    assert (SI : forall rh, surf_hits g (c_ray c) = rh ->
      csg_combine PInf asort DIFFERENCE [Fin q; Fin q] [s_id f; s_id f] rh [s_id g; s_id g] = ([Fin q; Fin q; PInf; PInf], [s_id f; s_id f; s_id g; s_id g]) ->
      absorbed_at asort (Node i DIFFERENCE bx (Leaf f bf) (Leaf g bg)) c q).
    { intros rh HG CC. assert (SS : shape_intersect asort (Node i DIFFERENCE bx (Leaf f bf) (Leaf g bg)) (c_ray c) = ([Fin q; Fin q; PInf; PInf], [s_id f; s_id f; s_id g; s_id g])).
      { cbn [shape_intersect]. rewrite BH, HF, HG. exact CC. }
      destruct (first_of asort _ c q _ [PInf; PInf] _ SS) as [P1 P2]; [repeat constructor|].
      apply (stopped asort _ c q f); auto. left. reflexivity. }
    destruct (cutter_column a op p O Ep c x y z dx dy dz R CT MV g PG OG KG) as [(u & v & HG & L & S)|[HG S]]; apply (SI _ HG).
    - destruct (Rlt_dec q u) as [T|T]; [apply (column_fst asort AS KT); apply rleb_true; lra|].
      destruct (Rlt_dec v q) as [T'|T']; [apply (column_last asort AS KT); lra|]. exfalso. apply NI. apply (proj2 (S q)). lra.
    - apply (column_fst asort AS KT); reflexivity.
  Qed.
  Lemma stop_passes : forall q, x + q * dx = 0 -> in_aperture (Pair a b) (0, 0) (y + q * dy) (z + q * dz) ->
    in_open_aperture op (0, 0) (y + q * dy) (z + q * dz) -> let_by asort s c.
  Proof.
    intros q X I J. destruct (stop_parts a b s p ES TO BC) as (i & bx & f & bf & g & bg & E & PF & MF & OF & KF & Eb & PG & OG & KG).
    rewrite E. pose proof stop_moving as MV. destruct (box_hit bx (c_ray c)) eqn:BH.
    2:{ eapply nothing_hit; [cbn [shape_intersect]; rewrite BH; reflexivity|]. cbn. repeat constructor. }
    assert (HF : surf_hits f (c_ray c) = [Fin q; Fin q]).
    { destruct (stop_plane a b op A B c x y z dx dy dz R CT MV f PF OF) as [[_ N]|(t & HF & X' & _)].
      - exfalso. exact (N DN q X I).
      - rewrite (one_crossing q t X X'). exact HF. }
    destruct (around q X J) as (e & E0 & N). assert (N1 := N e ltac:(rewrite Rabs_right; lra)). assert (N2 := N (- e) ltac:(rewrite Rabs_Ropp, Rabs_right; lra)).
    destruct (cutter_column a op p O Ep c x y z dx dy dz R CT MV g PG OG KG) as [(u & v & HG & L & S)|[HG S]].
    - apply S in N1. apply S in N2. eapply nothing_hit; [cbn [shape_intersect]; rewrite BH, HF, HG; apply surjective_pairing|].
      apply (column_through asort AS). lra.
    - exfalso. specialize (S _ _ N1 N2). lra.
  Qed.
  (** a sort that turns ties round loses the plate *)
  Lemma stop_lost : asort = turning -> forall q, x + q * dx = 0 -> in_aperture (Pair a b) (0, 0) (y + q * dy) (z + q * dz) ->
    (forall t, ~ in_aperture op (0, 0) (y + t * dy) (z + t * dz)) -> let_by asort s c.
  Proof.
    intros ET q X I J. destruct (stop_parts a b s p ES TO BC) as (i & bx & f & bf & g & bg & E & PF & MF & OF & KF & Eb & PG & OG & KG).
    rewrite E. pose proof stop_moving as MV. destruct (box_hit bx (c_ray c)) eqn:BH.
    2:{ eapply nothing_hit; [cbn [shape_intersect]; rewrite BH; reflexivity|]. cbn. repeat constructor. }
    assert (HF : surf_hits f (c_ray c) = [Fin q; Fin q]).
    { destruct (stop_plane a b op A B c x y z dx dy dz R CT MV f PF OF) as [[_ N]|(t & HF & X' & _)].
      - exfalso. exact (N DN q X I).
      - rewrite (one_crossing q t X X'). exact HF. }
    destruct (cutter_column a op p O Ep c x y z dx dy dz R CT MV g PG OG KG) as [(u & v & HG & L & S)|[HG S]].
    - exfalso. apply (J u). apply (proj2 (S u)). lra.
    - eapply nothing_hit; [cbn [shape_intersect]; rewrite BH, HF, HG; apply surjective_pairing|].
      unfold csg_combine, array_csg_unsorted. cbn [fst app length]. apply gather_inf. rewrite ET.
      assert (TU : turning [Fin q; Fin q; PInf; PInf] = [1; 0; 3; 2]%nat).
      { unfold turning, argsort_stable. cbn. assert (Q : rleb q q = true) by (apply rleb_true; lra). cbn. rewrite ?Q. reflexivity. }
      rewrite TU. cbn. repeat constructor.
  Qed.
End Stop.

Lemma stops_absorb : forall asort a b op, argsort_ok asort -> keeps_ties asort -> 0 <= a -> 0 <= b -> ap_ok op ->
  built asort (aperture (Pair a b) op) (fun s =>
    forall c x y z dx dy dz, c_ray c = Ray (pt x y z) (V4 dx dy dz 0) -> clear_towards op (V4 dx dy dz 0) -> dx <> 0 ->
      forall q, 0 < q -> x + q * dx = 0 -> in_open_aperture (Pair a b) (0, 0) (y + q * dy) (z + q * dz) ->
      ~ in_aperture op (0, 0) (y + q * dy) (z + q * dz) -> absorbed_at asort s c q).
Proof.
  intros asort a b op AS KT A B O. eapply built_more; [|apply stop_shape; auto]. intros s TO BC (p & Ep & E) c x y z dx dy dz R CT DN.
  apply (stop_absorbs asort a b op s p AS A B O Ep E TO BC c x y z dx dy dz R CT DN KT).
Qed.
Lemma stops_let_by : forall asort a b op, argsort_ok asort -> 0 <= a -> 0 <= b -> ap_ok op ->
  built asort (aperture (Pair a b) op) (fun s =>
    forall c x y z dx dy dz, c_ray c = Ray (pt x y z) (V4 dx dy dz 0) -> clear_towards op (V4 dx dy dz 0) -> dx <> 0 ->
      forall q, x + q * dx = 0 -> in_aperture (Pair a b) (0, 0) (y + q * dy) (z + q * dz) ->
      in_open_aperture op (0, 0) (y + q * dy) (z + q * dz) -> let_by asort s c).
Proof.
  intros asort a b op AS A B O. eapply built_more; [|apply stop_shape; auto]. intros s TO BC (p & Ep & E) c x y z dx dy dz R CT DN.
  apply (stop_passes asort a b op s p AS A B O Ep E TO BC c x y z dx dy dz R CT DN).
Qed.
Lemma stops_do_nothing_else : forall asort a b op, argsort_ok asort -> keeps_ties asort -> 0 <= a -> 0 <= b -> ap_ok op ->
  built asort (aperture (Pair a b) op) (fun s =>
    forall c x y z dx dy dz, c_ray c = Ray (pt x y z) (V4 dx dy dz 0) -> clear_towards op (V4 dx dy dz 0) -> ~ (dx = 0 /\ dy = 0 /\ dz = 0) ->
      let_by asort s c \/
      exists q, 0 < q /\ absorbed_at asort s c q /\ x + q * dx = 0 /\ in_aperture (Pair a b) (0, 0) (y + q * dy) (z + q * dz) /\
        ~ in_open_aperture op (0, 0) (y + q * dy) (z + q * dz)).
Proof.
  intros asort a b op AS KT A B O. eapply built_more; [|apply stop_shape; auto]. intros s TO BC (p & Ep & E) c x y z dx dy dz R CT MV.
  apply (stop_cases asort a b op s p AS A B O Ep E TO BC c x y z dx dy dz R CT MV KT).
Qed.
Lemma stops_need_ties : exists asort, argsort_ok asort /\
  built asort (aperture (Pair 4 4) (Round 2)) (fun s => forall c, c_ray c = Ray (pt (-1) (3 / 2) 0) (V4 1 0 0 0) -> let_by asort s c).
Proof.
  exists turning. split; [exact turning_ok|]. eapply built_more; [|apply stop_shape; [exact turning_ok|lra|lra|cbn; lra]].
  intros s TO BC (p & Ep & E) c R.
  assert (CT : clear_towards (Round 2) (V4 1 0 0 0)).
  { unfold clear_towards, clear. cbn [vx vy vz]. split; [right; rewrite Rabs_right; unfold atol; lra|]. split; [left; reflexivity|]. split; [left; reflexivity|]. left; ring. }
  apply (stop_lost turning 4 4 (Round 2) s p ltac:(lra) ltac:(lra) ltac:(cbn; lra) Ep E TO BC c (-1) (3 / 2) 0 1 0 0 R CT ltac:(lra) eq_refl 1); [lra| |].
  - cbn. split; apply Rabs_le; lra.
  - intros t K. cbn in K. nra.
Qed.
