(** Specification vocabulary for C95. *)
From Coq Require Import Reals ZArith List Sorting.Sorted.
From Verif Require Import Outcome Pose GeomModel.
Import ListNotations.
Open Scope Z_scope.

(** The least distance of samples at which the pixels of [count] images, one for each square of
    that size, are at most [gt]. *)
Definition least_step (count w h gt s : Z) : Prop :=
  0 < s /\ count * w * h <= gt * (s * s) /\ forall t, 0 <= t < s -> gt * (t * t) < count * w * h.

(** Reading order of pixels (x, y). *)
Definition reading_order (a b : Z * Z) : Prop := snd a < snd b \/ (snd a = snd b /\ fst a < fst b).

(** The pixels of the sampling grid with a depth of at most 10^10, in reading order. *)
Definition sampled (w h step : Z) (depth : Z -> Z -> R) (l : list (Z * Z)) : Prop :=
  StronglySorted reading_order l /\
  forall x y, In (x, y) l <->
    0 <= x < w /\ 0 <= y < h /\ (step | x) /\ (step | y) /\ (depth y x <= 10000000000)%R.

(** [p] lies at distance |d| on the line of the ray [u], on its side for positive [d]. *)
Definition on_ray (u : vec) (d : R) (p : vec) : Prop :=
  (vnorm p = Rabs d /\ exists k, p = vscale k u /\ (0 <= d -> 0 <= k) /\ (d <= 0 -> k <= 0))%R.

(** The points of all frames, each with the number of its frame. *)
Definition tagged {A} (fs : list (Z * list A)) : list (Z * A) :=
  flat_map (fun e => map (fun a => (fst e, a)) (snd e)) fs.
Definition total {A} (fs : list (Z * list A)) : Z := Z.of_nat (length (tagged fs)).
