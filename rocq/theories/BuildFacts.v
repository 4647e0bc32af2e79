(** * BuildFacts: what a construction program leaves in the heap *)
From Coq Require Import Reals Lra Lia List Bool ZArith.
Import ListNotations.
From Verif Require Import XR Arr Lin LinFacts Prim Csg Surf SpecGeom SpecTree CsgProps World SpecWorld
  WorldFacts WorldFacts2 WorldFacts3 WorldFacts4 WorldFacts5 WorldProps Components SpecComponents.
Open Scope R_scope.

(** ** Trees as values *)
Inductive ptree : Type :=
| TLeaf (p : prim) (m : material) (w : mat) (k : R)
| TNode (op : operation) (a b : ptree).
Fixpoint erase (s : shape) : ptree :=
  match s with
  | Leaf f _ => TLeaf (s_prim f) (s_mat f) (s_world f) (s_nscale f)
  | Node _ op _ l r => TNode op (erase l) (erase r)
  end.
Fixpoint mv (t : mat) (T : ptree) : ptree :=
  match T with
  | TLeaf p m w k => TLeaf p m (mmul t w) k
  | TNode op a b => TNode op (mv t a) (mv t b)
  end.
Fixpoint inv (T : ptree) : ptree :=
  match T with
  | TLeaf p m w k => TLeaf p m w (-1)
  | TNode op a b => TNode op (inv a) (inv b)
  end.
Fixpoint region (T : ptree) (q : v4) : Prop :=
  match T with
  | TLeaf p _ w _ => exists x, vw x = 1 /\ solid p x /\ mapply w x = q
  | TNode UNION a b => region a q \/ region b q
  | TNode INTERSECT a b => region a q /\ region b q
  | TNode DIFFERENCE a b => region a q /\ ~ region b q
  end.
Lemma inside_region : forall s q, inside s q <-> region (erase s) q.
Proof.
  induction s as [f b|i op b l IHl r IHr]; intros q; simpl; [reflexivity|].
  specialize (IHl q). specialize (IHr q). destruct op; simpl; tauto.
Qed.
Fixpoint right_leaf (T : ptree) : bool :=
  match T with
  | TLeaf _ _ _ _ => true
  | TNode op a b => right_leaf a && right_leaf b &&
      match op, b with DIFFERENCE, _ => true | _, TLeaf _ _ _ _ => true | _, _ => false end
  end.

(** ** The heap holds a tree *)
Inductive holds (h : heap) : loc -> ptree -> list loc -> Prop :=
| holds_leaf : forall l o p m, get h l = Some o -> o_kind o = KSurf p m ->
    holds h l (TLeaf p m (o_world o) (o_nscale o)) [l]
| holds_node : forall l o op a b A B pa pb, get h l = Some o -> o_kind o = KCsg op a b ->
    holds h a A pa -> holds h b B pb -> holds h l (TNode op A B) (l :: pa ++ pb).
Lemma holds_tree : forall h l T ps, holds h l T ps -> tree h l ps.
Proof. intros h l T ps H. induction H; [eapply tree_leaf; eauto|eapply tree_node; eauto]. Qed.
Lemma holds_get : forall h l T ps, holds h l T ps -> exists o, get h l = Some o /\ is_shape (o_kind o).
Proof. intros h l T ps H. destruct H as [l o p m G K|l o op a b A B pa pb G K _ _]; exists o; (split; [auto|rewrite K; exact I]). Qed.
Lemma holds_in : forall h l T ps, holds h l T ps -> In l ps.
Proof. intros h l T ps H. destruct H; left; auto. Qed.
Lemma tree_fun : forall h l ps, tree h l ps -> forall qs, tree h l qs -> ps = qs.
Proof.
  intros h l ps H. induction H as [l o p m G K|l o op a b pa pb G K _ IHa _ IHb]; intros qs Q; inversion Q; subst;
  rewrite G in H; injection H as <-; try congruence.
  rewrite K in H0. injection H0 as <- <- <-. f_equal. f_equal; auto.
Qed.
Lemma holds_parts : forall h l T ps, wf h -> holds h l T ps -> parts h l = ps.
Proof.
  intros h l T ps W H. destruct (holds_get _ _ _ _ H) as (o & G & S).
  assert (X := wf_tree h W (depth h) l o (get_depth _ _ _ G) G S). eapply tree_fun; [exact X|]. eapply holds_tree; eauto.
Qed.
Lemma holds_shape : forall h l T ps, holds h l T ps -> forall n s, shape_fuel n h l = Some s -> erase s = T.
Proof.
  intros h l T ps H. induction H as [l o p m G K|l o op a b A B pa pb G K _ IHa _ IHb]; intros [|n] s S; try discriminate;
  cbn [shape_fuel] in S; rewrite G, K in S.
  - injection S as <-. reflexivity.
  - destruct (shape_fuel n h a) as [sa|] eqn:Sa; [|discriminate]. destruct (shape_fuel n h b) as [sb|] eqn:Sb; [|discriminate].
    injection S as <-. simpl. f_equal; eauto.
Qed.
Lemma holds_keep : forall h h' l T ps, holds h l T ps ->
  (forall x o, In x ps -> get h x = Some o -> exists o', get h' x = Some o' /\ o_kind o' = o_kind o /\
     o_world o' = o_world o /\ o_nscale o' = o_nscale o) -> holds h' l T ps.
Proof.
  intros h h' l T ps H. induction H as [l o p m G K|l o op a b A B pa pb G K _ IHa _ IHb]; intros F.
  - destruct (F l o (or_introl eq_refl) G) as (o' & G' & K' & W & N). rewrite <- W, <- N. econstructor; eauto. congruence.
  - destruct (F l o (or_introl eq_refl) G) as (o' & G' & K' & _). econstructor; [exact G'|rewrite K'; exact K| |].
    + apply IHa. intros x ox I. apply F. right. apply in_app_iff; auto.
    + apply IHb. intros x ox I. apply F. right. apply in_app_iff; auto.
Qed.
Lemma holds_mv : forall t h h' l T ps, holds h l T ps ->
  (forall x o, In x ps -> get h x = Some o -> exists o', get h' x = Some o' /\ o_kind o' = o_kind o /\
     o_world o' = mmul t (o_world o) /\ o_nscale o' = o_nscale o) -> holds h' l (mv t T) ps.
Proof.
  intros t h h' l T ps H. induction H as [l o p m G K|l o op a b A B pa pb G K _ IHa _ IHb]; intros F.
  - destruct (F l o (or_introl eq_refl) G) as (o' & G' & K' & W & N). simpl. rewrite <- W, <- N. econstructor; eauto. congruence.
  - destruct (F l o (or_introl eq_refl) G) as (o' & G' & K' & _). simpl. econstructor; [exact G'|rewrite K'; exact K| |].
    + apply IHa. intros x ox I. apply F. right. apply in_app_iff; auto.
    + apply IHb. intros x ox I. apply F. right. apply in_app_iff; auto.
Qed.
Lemma holds_ltree : forall h l T ps, holds h l T ps -> exists ls, ltree h l ls /\ forall x, In x ls <-> (In x ps /\ exists o p m, get h x = Some o /\ o_kind o = KSurf p m).
Proof.
  intros h l T ps H. induction H as [l o p m G K|l o op a b A B pa pb G K _ (la & La & Ia) _ (lb & Lb & Ib)].
  - exists [l]. split; [eapply lt_leaf; eauto|]. intros x. split; [intros [<-|[]]|intros [I _]; auto]. split; [left; auto|eauto].
  - exists (la ++ lb). split; [eapply lt_node; eauto|]. intros x. rewrite in_app_iff, Ia, Ib. simpl. rewrite in_app_iff. split.
    + intros [[I E]|[I E]]; auto.
    + intros [[<-|[I|I]] E]; auto. destruct E as (o' & p & m & G' & K'). rewrite G in G'. injection G' as <-. congruence.
Qed.
Lemma holds_inv : forall h h' l T ps, holds h l T ps ->
  (forall x o, In x ps -> get h x = Some o -> exists o', get h' x = Some o' /\ o_kind o' = o_kind o /\
     o_world o' = o_world o /\ (forall p m, o_kind o = KSurf p m -> o_nscale o' = -1)) -> holds h' l (inv T) ps.
Proof.
  intros h h' l T ps H. induction H as [l o p m G K|l o op a b A B pa pb G K _ IHa _ IHb]; intros F.
  - destruct (F l o (or_introl eq_refl) G) as (o' & G' & K' & W & N). simpl. rewrite <- W, <- (N p m K). econstructor; eauto. congruence.
  - destruct (F l o (or_introl eq_refl) G) as (o' & G' & K' & _). simpl. econstructor; [exact G'|rewrite K'; exact K| |].
    + apply IHa. intros x ox I. apply F. right. apply in_app_iff; auto.
    + apply IHb. intros x ox I. apply F. right. apply in_app_iff; auto.
Qed.

(** ** One call *)
Lemma nice_wf : forall asort h, nice asort h -> wf h.
Proof. intros asort h (cs & R & _). eapply wf_run_prog; [apply wf_empty|eauto]. Qed.
Lemma nice_acyclic : forall asort h, nice asort h -> acyclic h.
Proof. intros asort h (cs & R & N & _). eapply run_prog_acyclic; [eauto|apply empty_acyclic|eauto]. Qed.
Lemma nice_good : forall asort h, nice asort h -> all_good h.
Proof. intros asort h (cs & R & _). eapply run_prog_good; [apply empty_good|eauto]. Qed.
Lemma nice_step : forall asort h c h', nice asort h -> no_set c -> affine_call c -> run_call asort c h = Ok h' -> nice asort h'.
Proof.
  intros asort h c h' (cs & R & N & A) Nc Ac H. exists (cs ++ [c]). split; [|split; apply Forall_app; auto].
  rewrite run_prog_app, R. simpl. rewrite H. reflexivity.
Qed.

Lemma set_normals_succeeds : forall h0 l ps, tree h0 l ps -> forall n k h, acyclic h0 -> same_kinds h0 h -> (l < n)%nat ->
  exists h', set_normals n k l h = Ok h'.
Proof.
  intros h0 l ps T. induction T as [l o p m G K|l o op a b pa pb G K _ IHa _ IHb]; intros [|n] k h A S L; try lia;
  destruct (S _ _ G) as (o' & G' & K'); cbn [set_normals]; rewrite G', K', K; [eauto|].
  assert (La : (a < l)%nat) by (eapply A; [exact G|rewrite K; left; auto]).
  assert (Lb : (b < l)%nat) by (eapply A; [exact G|rewrite K; right; left; auto]).
  destruct (IHa n k h A S ltac:(lia)) as (h1 & E1). rewrite E1. cbn [bind]. apply IHb; auto; [|lia].
  eapply same_kinds_trans; [exact S|]. apply same_kinds_kws. eapply (set_normals_kws n k a). rewrite E1. reflexivity.
Qed.
Lemma new_csg_succeeds : forall asort op a b h oa ob pb, acyclic h -> get h a = Some oa -> is_shape (o_kind oa) ->
  get h b = Some ob -> is_shape (o_kind ob) -> tree h b pb -> exists h', new_csg asort op a b h = Ok h'.
Proof.
  intros asort op a b h oa ob pb A Ga Sa Gb Sb T. unfold new_csg.
  pose proof (get_lt _ _ _ Ga) as La. pose proof (get_lt _ _ _ Gb) as Lb.
  replace (valid_locs h [a; b]) with true; [|symmetry; simpl; apply andb_true_iff; split; [|apply andb_true_iff; split; auto]; apply Nat.ltb_lt; auto].
  cbn [negb]. cbv zeta. set (n := fresh h). assert (En : n = length (h_objs h)) by reflexivity.
  set (h2 := upd (alloc (KCsg op a b) h) n (fun o => with_watch (o_watch o ++ [HCsgBox n]) o)).
  assert (G2n : exists on, get h2 n = Some on /\ o_kind on = KCsg op a b).
  { unfold h2. rewrite (get_upd_same _ _ _ _ (get_alloc_new (KCsg op a b) h)). eexists. split; reflexivity. }
  destruct G2n as (on & G2n & Kn).
  assert (G2 : forall x, (x < n)%nat -> get h2 x = get h x).
  { intros x L. unfold h2. rewrite get_upd_other by lia. apply get_alloc_old. lia. }
  assert (E3 : attach_to a n h2 = Ok (upd h2 a (with_watch (o_watch oa ++ o_watch on)))).
  { unfold attach_to. rewrite (G2 a), Ga, G2n by lia. destruct (o_kind oa); try contradiction; reflexivity. }
  rewrite E3. cbn [bind]. set (h3 := upd h2 a _).
  assert (G3b : exists ob', get h3 b = Some ob' /\ o_kind ob' = o_kind ob).
  { unfold h3. rewrite get_upd, (G2 b), Gb by lia. destruct (Nat.eqb b a); simpl; eauto. }
  destruct G3b as (ob' & G3b & Kb').
  assert (G3n : get h3 n = Some on) by (unfold h3; rewrite get_upd_other by lia; auto).
  assert (E4 : attach_to b n h3 = Ok (upd h3 b (with_watch (o_watch ob' ++ o_watch on)))).
  { unfold attach_to. rewrite G3b, G3n, Kb'. destruct (o_kind ob); try contradiction; reflexivity. }
  rewrite E4. cbn [bind]. set (h4 := upd h3 b _).
  assert (SK : same_kinds h h4).
  { intros x o G. pose proof (get_lt _ _ _ G) as L. unfold h4, h3. rewrite !get_upd, (G2 x), G by lia.
    destruct (Nat.eqb x b); destruct (Nat.eqb x a); simpl; eauto. }
  assert (G4n : get h4 n = Some on) by (unfold h4; rewrite get_upd_other by lia; auto).
  assert (H5 : exists h5, match op with DIFFERENCE => set_normals (depth h4) (-1) b h4 | _ => Ok h4 end = Ok h5 /\ kws h4 h5).
  { destruct op; try (exists h4; split; [reflexivity|apply kws_refl]).
    destruct (set_normals_succeeds h b pb T (depth h4) (-1) h4 A SK) as (h5 & E5).
    { unfold depth, h4, h3, h2. rewrite !len_upd, len_alloc. lia. }
    exists h5. split; [exact E5|]. eapply (set_normals_kws _ (-1) b). rewrite E5. reflexivity. }
  destruct H5 as (h5 & E5 & S5). rewrite E5. cbn [bind].
  assert (SK5 : same_kinds h h5) by (eapply same_kinds_trans; [exact SK|apply same_kinds_kws; exact S5]).
  destruct (same_kinds_kws _ _ S5 _ _ G4n) as (on5 & Gn5 & Kn5).
  destruct (SK5 _ _ Ga) as (oa5 & Ga5 & Ka5). destruct (SK5 _ _ Gb) as (ob5 & Gb5 & Kb5).
  unfold run_handler. rewrite Gn5, Kn5, Kn. unfold box_of. rewrite Ga5, Ka5, Gb5, Kb5.
  destruct (o_kind oa); try contradiction; destruct (o_kind ob); try contradiction; eauto.
Qed.

(** What a heap holds afterwards *)
Definition apart_lists (a b : list loc) : Prop := forall x, In x a -> In x b -> False.
Lemma surface_step : forall asort h p m, nice asort h -> prim_init p <> None -> exists h',
  run_call asort (CSurface p m) h = Ok h' /\ nice asort h' /\ length (h_objs h') = S (length (h_objs h)) /\
  holds h' (length (h_objs h)) (TLeaf p m mid 1) [length (h_objs h)] /\
  forall l T ps, holds h l T ps -> holds h' l T ps.
Proof.
  intros asort h p m N P. destruct (prim_init p) as [p'|] eqn:E; [|congruence]. clear P.
  assert (R : exists h', run_call asort (CSurface p m) h = Ok h').
  { cbn [run_call]. unfold new_surface. rewrite E. eauto. }
  destruct R as (h' & R). exists h'. split; [exact R|]. split; [apply (nice_step asort h (CSurface p m)); auto; exact I|].
  cbn [run_call] in R. unfold new_surface in R. rewrite E in R. injection R as <-.
  split; [rewrite !len_upd, len_alloc; reflexivity|]. split.
  - match goal with |- holds ?h' _ _ _ => assert (G : exists o, get h' (fresh h) = Some o /\ o_kind o = KSurf p m /\ o_world o = mid /\ o_nscale o = 1) end.
    { rewrite !get_upd, Nat.eqb_refl, get_alloc_new. simpl. eexists. repeat split. }
    destruct G as (o & G & K & W & S). change (length (h_objs h)) with (fresh h). rewrite <- W, <- S. eapply holds_leaf; eauto.
  - intros l T ps H. apply (holds_keep h); auto. intros x o _ G. pose proof (get_lt _ _ _ G).
    exists o. rewrite !get_upd_other by (unfold fresh; lia). rewrite get_alloc_old by auto. auto.
Qed.
Lemma motion_step : forall asort h l T ps mo t, nice asort h -> holds h l T ps -> NoDup ps -> rigid mo -> motion_matrix mo = Some t ->
  exists h', run_call asort (CMotion l mo) h = Ok h' /\ nice asort h' /\ length (h_objs h') = length (h_objs h) /\
  holds h' l (mv t T) ps /\ forall l' T' ps', apart_lists ps ps' -> holds h l' T' ps' -> holds h' l' T' ps'.
Proof.
  intros asort h l T ps mo t N H D Rg M. destruct (holds_get _ _ _ _ H) as (o & G & S).
  pose proof N as (cs & R & Ns & Na). destruct (rigid_succeeds asort cs h l o mo t R Ns Na G Rg M) as (h' & E).
  exists h'. split; [exact E|].
  split. { apply (nice_step asort h (CMotion l mo)); [exact N|exact I| |exact E]. destruct mo; try exact I; destruct Rg. }
  unfold apply_motion in E. rewrite M in E.
  assert (P := holds_parts _ _ _ _ (nice_wf _ _ N) H).
  split. { assert (Sk : sks h h') by (apply (transform_sks asort (depth h) l t); rewrite E; auto). apply Sk. }
  split.
  - apply (holds_mv t h); auto. intros x ox Ix Gx. destruct (transform_part _ _ _ _ _ _ _ E Gx) as (o' & G' & _ & K & S' & W).
    exists o'. rewrite (NoDup_times h l x), power_1 in W by (rewrite P; auto). auto.
  - intros l' T' ps' Ap H'. apply (holds_keep h); auto. intros x ox Ix Gx.
    destruct (transform_part _ _ _ _ _ _ _ E Gx) as (o' & G' & _ & K & S' & W).
    exists o'. rewrite times_zero in W by (rewrite P; intro J; eapply Ap; eauto). simpl in W. rewrite mmul_mid_l in W. auto.
Qed.
Lemma csg_step : forall asort h op a A pa b B pb, nice asort h -> holds h a A pa -> holds h b B pb -> apart_lists pa pb ->
  exists h', run_call asort (CCsg op a b) h = Ok h' /\ nice asort h' /\ length (h_objs h') = S (length (h_objs h)) /\
  holds h' (length (h_objs h)) (TNode op A (match op with DIFFERENCE => inv B | _ => B end)) (length (h_objs h) :: pa ++ pb) /\
  forall l' T' ps', apart_lists pb ps' -> holds h l' T' ps' -> holds h' l' T' ps'.
Proof.
  intros asort h op a A pa b B pb N Ha Hb Ap.
  destruct (holds_get _ _ _ _ Ha) as (oa & Ga & Sa). destruct (holds_get _ _ _ _ Hb) as (ob & Gb & Sb).
  destruct (new_csg_succeeds asort op a b h oa ob pb (nice_acyclic _ _ N) Ga Sa Gb Sb (holds_tree _ _ _ _ Hb)) as (h' & E).
  exists h'. split; [exact E|]. split; [apply (nice_step asort h (CCsg op a b)); auto; exact I|].
  destruct (new_csg_shape _ _ _ _ _ _ E) as (_ & _ & _ & _ & Len & _ & (on & Gn & Kn & _) & C). split; [exact Len|].
  destruct (holds_ltree _ _ _ _ Hb) as (lb & Lb & Ib).
  assert (X : exts (csg_start op a b h) h').
  { destruct (new_csg_exts asort op a b h h') as [->|X]; [rewrite E; reflexivity| |exact X]. exfalso. lia. }
  assert (KEEP : forall x o, get h x = Some o -> exists o', get h' x = Some o' /\ o_kind o' = o_kind o /\ o_world o' = o_world o /\
     o_nscale o' = match op with DIFFERENCE => if in_dec Nat.eq_dec x lb then -1 else o_nscale o | _ => o_nscale o end).
  { intros x o G. pose proof (get_lt _ _ _ G) as L. destruct (C _ _ G) as (o' & G' & K' & _). exists o'. split; auto. split; auto. split.
    - assert (G0 : get (csg_start op a b h) x = Some o) by (unfold csg_start; rewrite get_upd_other by (unfold fresh; lia); rewrite get_alloc_old; auto).
      destruct (proj2 (proj2 X) _ _ G0) as (o2 & G2 & (_ & _ & W & _)). congruence.
    - assert (Q := new_csg_nsc asort op a b h h' lb E Lb x L). unfold nsc in Q. rewrite G, G' in Q. exact Q. }
  assert (OUT : forall l' T' ps', apart_lists pb ps' -> holds h l' T' ps' -> holds h' l' T' ps').
  { intros l' T' ps' Ap' H'. apply (holds_keep h); auto. intros x o Ix G. destruct (KEEP _ _ G) as (o' & G' & K & W & S).
    exists o'. split; auto. split; auto. split; auto. destruct op; auto. destruct (in_dec Nat.eq_dec x lb) as [J|J]; auto.
    exfalso. apply Ib in J. eapply Ap'; [apply J|exact Ix]. }
  split; [|exact OUT]. change (length (h_objs h)) with (fresh h). econstructor; [exact Gn|exact Kn| |].
  - apply OUT; auto. intros x I J. eapply Ap; eauto.
  - destruct op; [apply (holds_keep h); auto|apply (holds_keep h); auto|apply (holds_inv h); auto];
    intros x o Ix G; destruct (KEEP _ _ G) as (o' & G' & K & W & S); exists o'; split; auto; split; auto; split; auto.
    intros p m Kx. destruct (in_dec Nat.eq_dec x lb) as [J|J]; auto. exfalso. apply J, Ib. split; eauto.
Qed.

(** ** Programs, by tracking the trees that are not yet part of a larger one *)
Fixpoint set_nth (env : list (option ptree)) (k : nat) (v : option ptree) : list (option ptree) :=
  match env, k with
  | [], _ => []
  | _ :: r, O => v :: r
  | x :: r, S k => x :: set_nth r k v
  end.
Definition track_call (c : call) (env : list (option ptree)) : option (list (option ptree)) :=
  match c with
  | CSurface p m => match prim_init p with Some _ => Some (env ++ [Some (TLeaf p m mid 1)]) | None => None end
  | CMotion l mo =>
      match nth_error env l, mo with
      | Some (Some T), (Move _ _ _ | RotX _ _ | RotY _ _ | RotZ _ _) =>
          match motion_matrix mo with Some t => Some (set_nth env l (Some (mv t T))) | None => None end
      | _, _ => None
      end
  | CCsg op a b =>
      if Nat.eqb a b then None else
      match nth_error env a, nth_error env b with
      | Some (Some A), Some (Some B) =>
          Some (set_nth (set_nth env a None) b None ++ [Some (TNode op A (match op with DIFFERENCE => inv B | _ => B end))])
      | _, _ => None
      end
  | _ => None
  end.
Fixpoint track (cs : list call) (env : list (option ptree)) : option (list (option ptree)) :=
  match cs with
  | [] => Some env
  | c :: r => match track_call c env with Some e => track r e | None => None end
  end.

(** The trees in [env] are in the heap from position [n] on, in separate sets of objects. *)
Definition tracked (h : heap) (n : nat) (env : list (option ptree)) : Prop :=
  length (h_objs h) = (n + length env)%nat /\
  exists PS : nat -> list loc, forall k T, nth_error env k = Some (Some T) ->
    holds h (n + k)%nat T (PS k) /\ NoDup (PS k) /\
    (forall x, In x (PS k) -> (n <= x < n + length env)%nat) /\
    (forall j U, j <> k -> nth_error env j = Some (Some U) -> apart_lists (PS k) (PS j)).
Lemma set_nth_length : forall env k v, length (set_nth env k v) = length env.
Proof. induction env; intros [|k] v; simpl; auto. Qed.
Lemma nth_set_nth : forall env k v j, nth_error (set_nth env k v) j =
  if Nat.eqb j k then match nth_error env j with Some _ => Some v | None => None end else nth_error env j.
Proof.
  induction env as [|x env IH]; intros [|k] v [|j]; simpl; auto; try (destruct (Nat.eqb j k); reflexivity).
Qed.
Lemma tracked_step : forall asort c h n env env', nice asort h -> tracked h n env -> track_call c env = Some env' ->
  exists h', run_call asort (shift n c) h = Ok h' /\ nice asort h' /\ tracked h' n env'.
Proof.
  intros asort c h n env env' N (Len & PS & P) H. destruct c as [|p m|ms|g ms|op a b|l mo|l|l]; try discriminate; cbn [track_call] in H.
  - destruct (prim_init p) as [p'|] eqn:E; [|discriminate]. injection H as <-.
    destruct (surface_step asort h p m N ltac:(congruence)) as (h' & R & N' & L' & H' & K). exists h'. split; [exact R|]. split; [exact N'|].
    split; [rewrite app_length; simpl; lia|].
    exists (fun k => if Nat.eqb k (length env) then [length (h_objs h)] else PS k).
    intros k T Hk. destruct (Nat.eqb_spec k (length env)) as [->|Nk].
    + rewrite nth_error_app2, Nat.sub_diag in Hk by lia. injection Hk as <-. rewrite <- Len. split; [exact H'|].
      split; [constructor; [simpl; tauto|constructor]|]. rewrite app_length; simpl. split; [intros x [<-|[]]; lia|].
      intros j U Nj Hj. destruct (Nat.eqb_spec j (length env)); [lia|].
      assert (Lj : (j < length env)%nat) by (assert (nth_error (env ++ [Some (TLeaf p m mid 1)]) j <> None) as Q by congruence; apply nth_error_Some in Q; rewrite app_length in Q; simpl in Q; lia).
      rewrite nth_error_app1 in Hj by lia. destruct (P _ _ Hj) as (_ & _ & B & _). intros x [<-|[]] J. specialize (B _ J). lia.
    + assert (Lk : (k < length env)%nat) by (assert (nth_error (env ++ [Some (TLeaf p m mid 1)]) k <> None) as Q by congruence; apply nth_error_Some in Q; rewrite app_length in Q; simpl in Q; lia).
      rewrite nth_error_app1 in Hk by lia. destruct (P _ _ Hk) as (A & B & C & D). split; [auto|]. split; [auto|].
      rewrite app_length; simpl. split; [intros x J; specialize (C _ J); lia|].
      intros j U Nj Hj. destruct (Nat.eqb_spec j (length env)) as [->|Nj'].
      * intros x J [<-|[]]. specialize (C _ J). lia.
      * assert (Lj : (j < length env)%nat) by (assert (nth_error (env ++ [Some (TLeaf p m mid 1)]) j <> None) as Q by congruence; apply nth_error_Some in Q; rewrite app_length in Q; simpl in Q; lia).
        rewrite nth_error_app1 in Hj by lia. eauto.
  - destruct (Nat.eqb_spec a b) as [|Nab]; [discriminate|].
    destruct (nth_error env a) as [[A|]|] eqn:Ea; try discriminate. destruct (nth_error env b) as [[B|]|] eqn:Eb; try discriminate.
    injection H as <-. destruct (P _ _ Ea) as (Ha & Da & Ba & Aa). destruct (P _ _ Eb) as (Hb & Db & Bb & Ab).
    assert (AP : apart_lists (PS a) (PS b)) by (eapply Aa; eauto).
    destruct (csg_step asort h op _ _ _ _ _ _ N Ha Hb AP) as (h' & R & N' & L' & H' & K). exists h'. split; [exact R|]. split; [exact N'|].
    set (env1 := set_nth (set_nth env a None) b None). assert (L1 : length env1 = length env) by (unfold env1; rewrite !set_nth_length; auto).
    assert (E1 : forall j U, nth_error env1 j = Some (Some U) -> j <> a /\ j <> b /\ nth_error env j = Some (Some U)).
    { intros j U. unfold env1. rewrite !nth_set_nth. destruct (Nat.eqb_spec j b) as [->|]; [destruct (if Nat.eqb b a then _ else _); discriminate|].
      destruct (Nat.eqb_spec j a) as [->|]; [destruct (nth_error env a); discriminate|]. auto. }
    split; [rewrite app_length, L1; simpl; lia|].
    exists (fun k => if Nat.eqb k (length env) then length (h_objs h) :: PS a ++ PS b else PS k).
    assert (SEL : forall k T V, nth_error (env1 ++ [Some V]) k = Some (Some T) -> (k = length env /\ T = V) \/ (k <> length env /\ nth_error env1 k = Some (Some T))).
    { intros k T V Hk. destruct (Nat.eq_dec k (length env)) as [->|Nk].
      - left. rewrite nth_error_app2, L1, Nat.sub_diag in Hk by lia. injection Hk as <-. auto.
      - right. split; auto. assert (nth_error (env1 ++ [Some V]) k <> None) as Q by congruence. apply nth_error_Some in Q.
        rewrite app_length, L1 in Q. simpl in Q. rewrite nth_error_app1 in Hk by lia. auto. }
    intros k T Hk. destruct (SEL _ _ _ Hk) as [[-> ->]|[Nk Hk1]].
    + rewrite Nat.eqb_refl. rewrite <- Len. split; [exact H'|]. split.
      { constructor.
        - rewrite in_app_iff. intros [J|J]; [specialize (Ba _ J)|specialize (Bb _ J)]; lia.
        - clear - Da Db AP. revert Da AP. generalize (PS a). intros la. induction la as [|x la IH]; simpl; intros Da AP; auto.
          inversion Da; subst. constructor; [rewrite in_app_iff; intros [J|J]; [contradiction|eapply AP; [left; reflexivity|exact J]]|].
          apply IH; auto. intros y I J. eapply AP; [right; exact I|exact J]. }
      split. { rewrite app_length, L1; simpl. intros x [<-|J]; [lia|]. apply in_app_iff in J. destruct J as [J|J]; [specialize (Ba _ J)|specialize (Bb _ J)]; lia. }
      intros j U Nj Hj. destruct (Nat.eqb_spec j (length env)); [lia|]. destruct (SEL _ _ _ Hj) as [[-> _]|[_ Hj1]]; [lia|].
      destruct (E1 _ _ Hj1) as (Na & Nb & Ej). destruct (P _ _ Ej) as (_ & _ & Bj & Aj).
      intros x [<-|J] Jx; [specialize (Bj _ Jx); lia|]. apply in_app_iff in J. destruct J as [J|J]; [eapply (Aj a A)|eapply (Aj b B)]; eauto.
    + destruct (Nat.eqb_spec k (length env)); [lia|]. destruct (E1 _ _ Hk1) as (Na & Nb & Ek). destruct (P _ _ Ek) as (Hk2 & Dk & Bk & Ak).
      split; [apply K; auto; eapply Ab; eauto|]. split; [auto|]. rewrite app_length, L1; simpl. split; [intros x J; specialize (Bk _ J); lia|].
      intros j U Nj Hj. destruct (SEL _ _ _ Hj) as [[-> ->]|[Nj1 Hj1]].
      * rewrite Nat.eqb_refl. intros x J [<-|Jx]; [specialize (Bk _ J); lia|]. apply in_app_iff in Jx. destruct Jx as [Jx|Jx]; [eapply (Ak a A)|eapply (Ak b B)]; eauto.
      * destruct (Nat.eqb_spec j (length env)); [lia|]. destruct (E1 _ _ Hj1) as (_ & _ & Ej). eauto.
  - destruct (nth_error env l) as [[T|]|] eqn:El; try discriminate.
    assert (X : rigid mo /\ exists t, motion_matrix mo = Some t /\ env' = set_nth env l (Some (mv t T))).
    { destruct mo; try discriminate; (split; [exact I|]); cbn [motion_matrix] in *; try (injection H as <-; eauto);
      match goal with |- context [sin_cos ?a ?u] => destruct (sin_cos a u) as [[s c]|] end; try discriminate; injection H as <-; eauto. }
    destruct X as (Rg & t & M & ->). clear H. destruct (P _ _ El) as (Hl & Dl & Bl & Al).
    destruct (motion_step asort h _ _ _ mo t N Hl Dl Rg M) as (h' & R & N' & L' & H' & K). exists h'. split; [exact R|]. split; [exact N'|].
    split; [rewrite set_nth_length; lia|]. exists PS. intros k U Hk. rewrite nth_set_nth in Hk. rewrite set_nth_length.
    assert (OTH : forall j V, j <> l -> nth_error (set_nth env l (Some (mv t T))) j = Some (Some V) -> nth_error env j = Some (Some V)).
    { intros j V Nj. rewrite nth_set_nth. destruct (Nat.eqb_spec j l); [contradiction|auto]. }
    destruct (Nat.eqb_spec k l) as [->|Nk].
    + rewrite El in Hk. injection Hk as <-. split; [exact H'|]. split; [auto|]. split; [auto|].
      intros j V Nj Hj. eapply Al; eauto.
    + destruct (P _ _ Hk) as (Hk2 & Dk & Bk & Ak). split; [apply K; auto; eapply Al; eauto|]. split; [auto|]. split; [auto|].
      intros j V Nj Hj. destruct (Nat.eq_dec j l) as [->|Njl]; [eapply Ak; eauto|]. eapply Ak; eauto.
Qed.
Lemma track_sound : forall asort cs h n env env', nice asort h -> tracked h n env -> track cs env = Some env' ->
  exists h', run_prog asort (map (shift n) cs) h = Ok h' /\ nice asort h' /\ tracked h' n env'.
Proof.
  intros asort cs. induction cs as [|c cs IH]; intros h n env env' N Tr H; simpl in H; [injection H as <-; exists h; auto|].
  destruct (track_call c env) as [e|] eqn:E; [|discriminate]. destruct (tracked_step asort c h n env e N Tr E) as (h1 & R & N1 & T1).
  destruct (IH h1 n e env' N1 T1 H) as (h' & R' & N' & T'). exists h'. cbn [map run_prog]. rewrite R. auto.
Qed.
Lemma tracked_start : forall h, tracked h (length (h_objs h)) [].
Proof. intros h. split; [simpl; lia|]. exists (fun _ => []). intros [|k] T H; discriminate. Qed.

(** ** The finished component *)
Fixpoint prims_ok (T : ptree) : Prop :=
  match T with TLeaf p _ w _ => prim_ok p /\ affine w | TNode _ a b => prims_ok a /\ prims_ok b end.
Lemma holds_tree_ok : forall h, all_good h -> forall n l s T, shape_fuel n h l = Some s -> erase s = T -> prims_ok T -> tree_ok s.
Proof.
  intros h A n. induction n as [|n IH]; intros l s T S E P; [discriminate|]. cbn [shape_fuel] in S.
  destruct (get h l) as [o|] eqn:G; [|discriminate]. destruct (o_kind o) as [|p m|op a b|ms] eqn:K; try discriminate.
  - injection S as <-. simpl in E. subst T. destruct P as [P Af]. simpl. split; [exact P|]. split; [exact Af|].
    destruct (A _ _ G) as (_ & M & _). apply M.
  - destruct (shape_fuel n h a) as [sa|] eqn:Sa; [|discriminate]. destruct (shape_fuel n h b) as [sb|] eqn:Sb; [|discriminate].
    injection S as <-. simpl in E. subst T. destruct P as [Pa Pb]. split; eauto.
Qed.
Lemma right_leaf_simple : forall h l T ps, holds h l T ps -> right_leaf T = true ->
  forall x o op a b, In x ps -> get h x = Some o -> o_kind o = KCsg op a b ->
  op = DIFFERENCE \/ exists ob p m, get h b = Some ob /\ o_kind ob = KSurf p m.
Proof.
  intros h l T ps H. induction H as [l o p m G K|l o op a b A B pa pb G K HA IHa HB IHb]; intros RL x ox opx ax bx I Gx Kx.
  - destruct I as [<-|[]]. rewrite G in Gx. injection Gx as <-. congruence.
  - simpl in RL. apply andb_true_iff in RL. destruct RL as [RL RB]. apply andb_true_iff in RL. destruct RL as [RA RB'].
    destruct I as [<-|I].
    + rewrite G in Gx. injection Gx as <-. rewrite K in Kx. injection Kx as <- <- <-.
      destruct op; [right|right|left; reflexivity]; (inversion HB; subst; [eauto|discriminate]).
    + apply in_app_iff in I. destruct I as [I|I]; eauto.
Qed.
(** The last call is a movement of the result *)
Lemma built_component : forall asort cs l mo h env T, argsort_ok asort -> nice asort h ->
  track (cs ++ [CMotion l mo]) [] = Some env -> nth_error env l = Some (Some T) -> right_leaf T = true -> prims_ok T ->
  exists h' s, run_prog asort (map (shift (length (h_objs h))) (cs ++ [CMotion l mo])) h = Ok h' /\
    shape_of h' (length (h_objs h) + l)%nat = Some s /\ erase s = T /\ tree_ok s /\ boxes_current s.
Proof.
  intros asort cs l mo h env T AO N TR NT RL PO.
  assert (X : exists env1, track cs [] = Some env1 /\ track_call (CMotion l mo) env1 = Some env).
  { clear - TR. revert TR. generalize (@nil (option ptree)). induction cs as [|c cs IH]; intros e TR.
    - change ([] ++ [CMotion l mo]) with [CMotion l mo] in TR. unfold track in TR. exists e. split; [reflexivity|].
      destruct (track_call (CMotion l mo) e); congruence.
    - cbn [app track] in TR |- *. destruct (track_call c e); [auto|discriminate]. }
  destruct X as (env1 & T1 & T2). set (n := length (h_objs h)) in *.
  destruct (track_sound asort cs h n [] env1 N (tracked_start h) T1) as (h1 & R1 & N1 & Tr1).
  destruct (tracked_step asort (CMotion l mo) h1 n env1 env N1 Tr1 T2) as (h2 & R2 & N2 & Tr2).
  exists h2. destruct Tr2 as (Len2 & PS2 & P2). destruct (P2 _ _ NT) as (H2 & D2 & _ & _).
  assert (T0 : exists T0, nth_error env1 l = Some (Some T0)).
  { cbn [track_call] in T2. destruct (nth_error env1 l) as [[T0|]|]; try discriminate. eauto. }
  destruct T0 as (T0 & E0). destruct Tr1 as (Len1 & PS1 & P1). destruct (P1 _ _ E0) as (H1 & D1 & _ & _).
  destruct (holds_get _ _ _ _ H1) as (o & G & S). pose proof N1 as (cs1 & RR & _).
  assert (RL0 : right_leaf T0 = true).
  { cbn [track_call] in T2. rewrite E0 in T2.
    assert (Y : exists t, env = set_nth env1 l (Some (mv t T0))).
    { destruct mo; try discriminate; destruct (motion_matrix _); try discriminate; injection T2 as <-; eauto. }
    destruct Y as (t & ->). rewrite nth_set_nth, Nat.eqb_refl, E0 in NT. injection NT as <-. clear - RL.
    induction T0 as [|op a IHa b IHb]; auto. simpl in *. apply andb_true_iff in RL. destruct RL as [RL X]. apply andb_true_iff in RL. destruct RL as [A B].
    rewrite IHa, IHb by auto. simpl. destruct op; auto; destruct b; simpl in X; auto. }
  assert (RS : right_simple h1 (n + l)%nat).
  { intros x ox op a b I Gx Kx. eapply right_leaf_simple; eauto. rewrite <- (holds_parts _ _ _ _ (nice_wf _ _ N1) H1). exact I. }
  assert (ND : NoDup (parts h1 (n + l)%nat)) by (rewrite (holds_parts _ _ _ _ (nice_wf _ _ N1) H1); exact D1).
  destruct (moved_tree_current asort cs1 h1 (n + l)%nat o mo h2 AO RR G S ND RS R2) as (s & Sh & BC).
  exists s. split; [rewrite map_app, run_prog_app, R1; cbn [map bind run_prog]; rewrite R2; reflexivity|].
  split; [exact Sh|]. assert (ER : erase s = T) by (eapply holds_shape; eauto). split; [exact ER|].
  split; [|exact BC]. eapply holds_tree_ok; [apply (nice_good _ _ N2)|exact Sh|exact ER|exact PO].
Qed.
