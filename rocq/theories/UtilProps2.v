(** * UtilProps2: visible wavelengths have different colours *)
From Coq Require Import Reals Lra Lia Psatz List Bool.
Import ListNotations.
From Verif Require Import XR XRFacts Surf SpecTrace Utils SpecUtils UtilFacts UtilProps.
Open Scope R_scope.

Lemma pw_lt : forall g a b, 0 < g -> 0 <= a -> a < b -> pw g a < pw g b.
Proof.
  intros g a b G A B. rewrite (pw_pos g b) by lra. rewrite (Rabs_right b) by lra.
  destruct (Req_EM_T a 0) as [->|N]; [rewrite pw_0 by auto; apply exp_pos|].
  rewrite pw_pos by auto. rewrite (Rabs_right a) by lra. apply Rlt_Rpower_l; lra.
Qed.
Lemma pw_inj : forall g a b, 0 < g -> 0 <= a -> 0 <= b -> pw g a = pw g b -> a = b.
Proof.
  intros g a b G A B E. destruct (Rtotal_order a b) as [L|[L|L]]; auto.
  - pose proof (pw_lt g a b G A L). lra.
  - pose proof (pw_lt g b a G B L). lra.
Qed.

(** The six kinds of colours, each with the one channel that varies *)
Inductive hue (g w : R) : rgb -> Prop :=
| Hue1 : forall r a, 38/100 <= w < 44/100 -> a = 3/10 + 7/10 * (w - 38/100) / (6/100) -> hue g w (RGB r 0 (pw g a))
| Hue2 : forall s, 44/100 <= w < 49/100 -> s = (w - 44/100) / (5/100) -> hue g w (RGB 0 (pw g s) 1)
| Hue3 : forall s, 49/100 <= w < 51/100 -> s = (51/100 - w) / (2/100) -> hue g w (RGB 0 1 (pw g s))
| Hue4 : forall s, 51/100 <= w < 58/100 -> s = (w - 51/100) / (7/100) -> hue g w (RGB (pw g s) 1 0)
| Hue5 : forall s, 58/100 <= w < 645/1000 -> s = (645/1000 - w) / (65/1000) -> hue g w (RGB 1 (pw g s) 0)
| Hue6 : forall s, 645/1000 <= w <= 75/100 -> s = 3/10 + 7/10 * (75/100 - w) / (105/1000) -> hue g w (RGB (pw g s) 0 0).

Lemma colour_hue : forall g w, 0 < g -> visible w -> hue g w (colour g w).
Proof.
  intros g w G [V1 V2]. rewrite <- (column_colour (RGB 0 0 0) g w G).
  unfold rgb_column, zone6, zone5, zone4, zone3, zone2, zone1. cbv zeta.
  rewrite (Rmax_left w) by lra. rewrite (Rmin_left w) by lra.
  fold (pw g (- (w - 44/100) / (44/100 - 38/100) * (3/10 + 7/10 * (w - 38/100) / (44/100 - 38/100)))).
  fold (pw g (1 * (3/10 + 7/10 * (w - 38/100) / (44/100 - 38/100)))).
  fold (pw g ((w - 44/100) / (49/100 - 44/100))). fold (pw g ((51/100 - w) / (51/100 - 49/100))).
  fold (pw g ((w - 51/100) / (58/100 - 51/100))). fold (pw g ((645/1000 - w) / (645/1000 - 58/100))).
  fold (pw g (3/10 + 7/10 * (75/100 - w) / (75/100 - 645/1000))).
  destruct (Rlt_or_le w (44/100)). { zones. apply Hue1; [lra|field]. }
  destruct (Rlt_or_le w (49/100)). { zones. apply Hue2; [lra|field]. }
  destruct (Rlt_or_le w (51/100)). { zones. apply Hue3; [lra|field]. }
  destruct (Rlt_or_le w (58/100)). { zones. apply Hue4; [lra|field]. }
  destruct (Rlt_or_le w (645/1000)). { zones. apply Hue5; [lra|field]. }
  zones. apply Hue6; [lra|field].
Qed.

Lemma colour_injective : forall g w w', 0 < g -> visible w -> visible w' -> colour g w = colour g w' -> w = w'.
Proof.
  intros g w w' G V V' E. pose proof (colour_hue g w G V) as A. pose proof (colour_hue g w' G V') as B.
  rewrite E in A. clear E. revert A B. generalize (colour g w'). intros c A B.
  pose proof (pw_0 g G) as P0. pose proof (pw_1 g) as P1.
  assert (Z : forall a, 0 <= a -> pw g a = 0 -> a = 0) by (intros; apply (pw_inj g); auto; lra).
  assert (O : forall a, 0 <= a -> pw g a = 1 -> a = 1) by (intros; apply (pw_inj g); auto; lra).
  destruct A as [r a W S|a W S|a W S|a W S|a W S|a W S]; inversion B as [r' b W' S' E|b W' S' E|b W' S' E|b W' S' E|b W' S' E|b W' S' E];
    try lra;
    repeat match goal with
    | H : pw g ?x = pw g ?y |- _ => apply (pw_inj g) in H; [|auto; lra ..]
    | H : pw g ?x = 0 |- _ => apply Z in H; [|lra]
    | H : pw g ?x = 1 |- _ => apply O in H; [|lra]
    | H : 0 = pw g ?x |- _ => symmetry in H
    | H : 1 = pw g ?x |- _ => symmetry in H
    end; lra.
Qed.

Lemma colours_tell_wavelengths : forall g junk junk' l l', 0 < g -> Forall visible l -> Forall visible l' ->
  wavelength_to_rgb junk (Array l) g = wavelength_to_rgb junk' (Array l') g -> l = l'.
Proof.
  intros g junk junk' l l' G V V' E. rewrite !rgb_array in E by auto.
  assert (E' : map (colour g) l = map (colour g) l') by congruence. clear E. revert l' V' E'.
  induction V as [|w l W V IH]; intros l' V' E; destruct V' as [|w' l' W' V']; auto; try discriminate.
  cbn [map] in E. apply (f_equal (fun x => (hd (RGB 0 0 0) x, tl x))) in E. cbn [hd tl] in E.
  assert (Q : forall A B (a a' : A) (b b' : B), (a, b) = (a', b') -> a = a' /\ b = b') by (intros A B a a' b b' J; injection J; auto).
  apply Q in E. destruct E as [E1 E2]. f_equal; auto. apply (colour_injective g); auto.
Qed.
