(** Notions for the statements about densely drawn sectors. *)
From Coq Require Import Reals ZArith List.
From Verif Require Import Pose GeomModel SectorModel SectorSpec.
Import ListNotations.
Open Scope R_scope.

(** A pixel of every tenth row and column of the image *)
Definition tenth (rows cols : Z) (x y : Z) : Prop :=
  (0 <= x < cols /\ 0 <= y < rows /\ x mod 10 = 0 /\ y mod 10 = 0)%Z.
(** The viewing ray [r] meets the triangle of the sector's three points at distance [d]. *)
Definition meets (r : vec) (s : sector) (d : R) : Prop :=
  exists t, 0 < t /\ in_triangle3 (vscale t r) (s0 s) (s1 s) (s2 s) /\ d = vnorm (vscale t r).
(** Row by row *)
Definition before (a b : Z * Z * R) : Prop :=
  (snd (fst a) < snd (fst b) \/ snd (fst a) = snd (fst b) /\ fst (fst a) < fst (fst b))%Z.
(** Sectors as a triangulation gives them *)
Definition stored (m : sectors) : Prop := NoDup (map fst m) /\ forall ks, In ks m -> proper (snd ks).
(** No viewing ray of the drawing is in two sectors. *)
Definition separate (unmap : Z -> Z -> vec) (rows cols : Z) (m : sectors) : Prop :=
  forall x y a b, tenth rows cols x y -> In a m -> In b m -> in_cone (unmap x y) (snd a) -> in_cone (unmap x y) (snd b) -> a = b.
Definition sees (unmap : Z -> Z -> vec) (rows cols : Z) : Prop := forall x y, tenth rows cols x y -> unmap x y <> vzero.
