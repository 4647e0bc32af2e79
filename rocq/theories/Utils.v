(** * Utils: model of /repo/pyrayt/utils.py and of the glasses of /repo/pyrayt/materials.py *)
From Coq Require Import Reals List Bool.
Import ListNotations.
From Verif Require Import XR Surf.
Open Scope R_scope.

(** [x ** gamma] for x >= 0 *)
Definition pow_nn (x g : R) : R :=
  if Req_EM_T x 0 then (if Req_EM_T g 0 then 1 else 0) else Rpower x g.

(** ** wavelength_to_rgb (utils.py:5-102), one column of the colour matrix *)
Record rgb : Type := RGB { red : R; green : R; blue : R }.

(** utils.py:20-37, 380 -> 440 nm; [color] is the matrix filled so far, at first the
    unspecified content of [np.empty] *)
Definition zone1 (g w : R) (color : rgb) : rgb :=
  let zone_min := 38/100 in let zone_max := 44/100 in
  let clipped_wave := Rmax w zone_min in
  let attenuation := 3/10 + 7/10 * (clipped_wave - zone_min) / (zone_max - zone_min) in
  let r := pow_nn (Rabs (- (clipped_wave - zone_max) / (zone_max - zone_min) * attenuation)) g in
  let b := pow_nn (Rabs (1 * attenuation)) g in
  if rltb w zone_max then RGB r 0 b else color.
(** utils.py:39-50, 440 -> 490 nm *)
Definition zone2 (g w : R) (color : rgb) : rgb :=
  let zone_min := 44/100 in let zone_max := 49/100 in
  if (rleb zone_min w && rltb w zone_max)%bool
  then RGB 0 (pow_nn (Rabs ((w - zone_min) / (zone_max - zone_min))) g) 1 else color.
(** utils.py:52-63, 490 -> 510 nm *)
Definition zone3 (g w : R) (color : rgb) : rgb :=
  let zone_min := 49/100 in let zone_max := 51/100 in
  if (rleb zone_min w && rltb w zone_max)%bool
  then RGB 0 1 (pow_nn (Rabs ((zone_max - w) / (zone_max - zone_min))) g) else color.
(** utils.py:65-76, 510 -> 580 nm *)
Definition zone4 (g w : R) (color : rgb) : rgb :=
  let zone_min := 51/100 in let zone_max := 58/100 in
  if (rleb zone_min w && rltb w zone_max)%bool
  then RGB (pow_nn (Rabs ((w - zone_min) / (zone_max - zone_min))) g) 1 0 else color.
(** utils.py:78-89, 580 -> 645 nm *)
Definition zone5 (g w : R) (color : rgb) : rgb :=
  let zone_min := 58/100 in let zone_max := 645/1000 in
  if (rleb zone_min w && rltb w zone_max)%bool
  then RGB 1 (pow_nn (Rabs ((zone_max - w) / (zone_max - zone_min))) g) 0 else color.
(** utils.py:91-101, from 645 nm *)
Definition zone6 (g w : R) (color : rgb) : rgb :=
  let zone_min := 645/1000 in let zone_max := 75/100 in
  let clipped_wave := Rmin w zone_max in
  let attenuation := 3/10 + 7/10 * (zone_max - clipped_wave) / (zone_max - zone_min) in
  if rleb zone_min w then RGB (pow_nn (Rabs attenuation) g) 0 0 else color.

Definition rgb_column (junk : rgb) (g w : R) : rgb :=
  zone6 g w (zone5 g w (zone4 g w (zone3 g w (zone2 g w (zone1 g w junk))))).

(** The argument: one number, or an array.  [None] is the IndexError of
    [wavelength.shape[0]] on a number (line 17). *)
Inductive wavelengths : Type := Scalar (w : R) | Array (ws : list R).
Definition wavelength_to_rgb (junk : nat -> rgb) (ws : wavelengths) (g : R) : option (list rgb) :=
  match ws with
  | Scalar _ => None
  | Array l => Some (map (fun q : nat * R => rgb_column (junk (fst q)) g (snd q)) (combine (seq 0 (length l)) l))
  end.

(** ** lensmakers_equation (utils.py:105-118) *)
(** Division of Python floats: [None] is ZeroDivisionError *)
Definition pydiv (a b : xr) : option xr :=
  match b with Fin y => if Req_EM_T y 0 then None else Some (xdiv a b) | _ => Some (xdiv a b) end.
Definition lensmakers_equation (r1 r2 n thickness : xr) : option xr :=
  match pydiv (Fin 1) r1, pydiv (Fin 1) r2,
        pydiv (xmul (xsub n (Fin 1)) thickness) (xmul (xmul n r1) r2) with
  | Some a, Some b, Some c =>
      let p := xmul (xsub n (Fin 1)) (xadd (xsub a b) c) in
      pydiv (Fin 1) p
  | _, _, _ => None
  end.

(** ** Glasses (materials.py:65-171) *)
(** materials.py:102-118 [BasicRefractor.index_at] *)
Definition basic_index (n : R) (w : R) : xr := Fin n.
(** materials.py:121-145 [SellmeierRefractor.index_at].  Wavelengths reach it as numpy
    arrays (materials.py:73), so divisions and roots follow numpy. *)
Record sellmeier : Type := Sellmeier { b1 : R; b2 : R; b3 : R; c1 : R; c2 : R; c3 : R }.
Definition sellmeier_term (b c w : R) : xr := xdiv (Fin (b * (w * w))) (Fin (w * w - c)).
Definition sellmeier_index (s : sellmeier) (w : R) : xr :=
  xsqrt (xadd (xadd (xadd (Fin 1) (sellmeier_term (b1 s) (c1 s) w))
                    (sellmeier_term (b2 s) (c2 s) w))
              (sellmeier_term (b3 s) (c3 s) w)).
(** materials.py:77-86 [Glass.abbe].  SIMPLIFICATION: the cache is left out; glasses are
    not changed after construction (GlassCache.v has both). *)
Definition abbe (index_at : R -> xr) : xr :=
  xdiv (xsub (index_at (5893/10000)) (Fin 1)) (xsub (index_at (4861/10000)) (index_at (6563/10000))).

(** materials.py:155-171: the glasses of the catalogue *)
Definition bk7 : sellmeier := Sellmeier
  (103961212/100000000) (231792344/1000000000) (101046945/100000000)
  (600069867/100000000000) (200179144/10000000000) (103560653/1000000).
Definition sf5 : sellmeier := Sellmeier
  (152481889/100000000) (187085527/1000000000) (142729015/100000000)
  (11254756/1000000000) (588995392/10000000000) (129141675/1000000).
Definition sf2 : sellmeier := Sellmeier
  (140301821/100000000) (231767504/1000000000) (939056586/1000000000)
  (105795466/10000000000) (493226978/10000000000) (112405955/1000000).
Inductive glass_name : Type := Ideal | BK7 | SF5 | SF2.
Definition glass (g : glass_name) : R -> xr :=
  match g with
  | Ideal => basic_index (15/10)
  | BK7 => sellmeier_index bk7
  | SF5 => sellmeier_index sf5
  | SF2 => sellmeier_index sf2
  end.
Definition glass_material (g : glass_name) : material := Refractor (glass g).
