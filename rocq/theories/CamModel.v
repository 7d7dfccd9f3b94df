(** Model of include/system/CameraModel.h and source/system/CameraModel.cpp in real arithmetic. *)
From Coq Require Import Reals ZArith List Bool.
From Verif Require Import Outcome Pose GeomModel.
Import ListNotations.
Open Scope R_scope.
Open Scope outcome_scope.

(** CameraModel.h 149-160.  [unmapPolyDeg] is the number of coefficients used (0 for the pinhole
    constructor, which still stores one coefficient). *)
Record camera := {
  width : Z; height : Z;
  unmapPolyDeg : nat;
  unmapPolyCoeffs : list R;
  center : pt;
  scale : R;
  maxRadius : R; minZ : R; maxAngle : R;
  mapPolyCoeffs : list R
}.

(** Coefficient number [i]; the theorems only use lists that have it. *)
Definition coeff (p : list R) (i : nat) : R := nth i p 0.

(** std::atan2 *)
Definition atan2 (y x : R) : R :=
  if Rlt_dec 0 x then atan (y / x)
  else if Rlt_dec x 0 then (if Rlt_dec y 0 then atan (y / x) - PI else atan (y / x) + PI)
  else if Rlt_dec 0 y then PI / 2 else if Rlt_dec y 0 then - (PI / 2) else 0.

(** CameraModel.h 43-48: the loop, two coefficients per turn; [n] bounds the number of turns. *)
Fixpoint unmap_loop (n : nat) (deg : nat) (p : list R) (rho1 rho2 : R) (i : nat) (z rhoN : R) : R :=
  match n with
  | O => z
  | S m =>
      if Nat.ltb i deg then
        let z := z + rhoN * coeff p i in
        let z := if Nat.ltb (i + 1) deg then z + rhoN * rho1 * coeff p (i + 1) else z in
        unmap_loop m deg p rho1 rho2 (i + 2) z (rhoN * rho2)
      else z
  end.

(** CameraModel.h 26-52 *)
Definition unmap (c : camera) (point : pt) : vec :=
  let x := px point / scale c - px (center c) in
  let y := py point / scale c - py (center c) in
  let rho2 := x * x + y * y in
  let rho1 := sqrt rho2 in
  V3 x y (unmap_loop (unmapPolyDeg c) (unmapPolyDeg c) (unmapPolyCoeffs c) rho1 rho2 1
            (coeff (unmapPolyCoeffs c) 0) rho2).

(** CameraModel.h 124-132: calcUnmapPoly *)
Fixpoint calc_loop (n : nat) (p : list R) (r : R) (i : nat) (res rN : R) : R :=
  match n with
  | O => res
  | S m => calc_loop m p r (i + 1) (res + coeff p i * rN) (rN * r)
  end.
Definition calcUnmapPoly (deg : nat) (p : list R) (r : R) : R :=
  calc_loop (deg - 1) p r 1 (coeff p 0) (r * r).
(** CameraModel.h 133-141: calcMapPoly; the same loop from the first power. *)
Definition calcMapPoly (p : list R) (v : R) : R :=
  calc_loop (length p - 1) p v 1 (coeff p 0) v.

(** CameraModel.h 54-75; normalized() of a zero vector is the zero vector *)
Definition map_ray (c : camera) (ray : vec) : pt :=
  let hn := sqrt (vx ray * vx ray + vy ray * vy ray) in
  let angle := atan2 hn (vz ray) in
  let r := calcMapPoly (mapPolyCoeffs c) angle in
  let dx := if Rlt_dec 0 hn then vx ray / hn else vx ray in
  let dy := if Rlt_dec 0 hn then vy ray / hn else vy ray in
  P2 ((dx * r + px (center c)) * scale c) ((dy * r + py (center c)) * scale c).

(** CameraModel.cpp 69-75: the coefficients times powers of [s]. *)
Fixpoint scale_loop (n : nat) (s sK : R) (p : list R) : list R :=
  match n, p with
  | S m, a :: p' => a * sK :: scale_loop m s (sK * s) p'
  | _, _ => p
  end.
Definition scale_coeffs (deg : nat) (s inv : R) (p : list R) : list R :=
  match p with
  | [] => []
  | a :: p' => a * inv :: scale_loop (deg - 1) s s p'
  end.

(** CameraModel.cpp 61-82: normalize() *)
Definition normalize (c : camera) : camera :=
  let wd := IZR (width c) in
  let hd := IZR (height c) in
  let ix := px (center c) * scale c in
  let iy := py (center c) * scale c in
  let dist x y := sqrt ((x - ix) * (x - ix) + (y - iy) * (y - iy)) in
  let newScale := Rmax (Rmax (dist 0 0) (dist wd 0)) (Rmax (dist 0 hd) (dist wd hd)) in
  let s := newScale / scale c in
  let p := scale_coeffs (unmapPolyDeg c) s (scale c / newScale) (unmapPolyCoeffs c) in
  let minZUnnorm := calcUnmapPoly (unmapPolyDeg c) p 1 in
  {| width := width c; height := height c; unmapPolyDeg := unmapPolyDeg c; unmapPolyCoeffs := p;
     center := P2 (px (center c) / s) (py (center c) / s); scale := newScale;
     maxRadius := 1; minZ := minZUnnorm / sqrt (minZUnnorm * minZUnnorm + 1 * 1);
     maxAngle := atan2 1 minZUnnorm; mapPolyCoeffs := mapPolyCoeffs c |}.

(** CameraModel.cpp 157-159: some angle larger than its successor. *)
Fixpoint decreasing_somewhere (l : list (R * R)) : bool :=
  match l with
  | a :: ((b :: _) as l') => if Rlt_dec (snd b) (snd a) then true else decreasing_somewhere l'
  | _ => false
  end.

(** CameraModel.cpp 136-176: setMapPolyCoeffs.  [samples]: the radii drawn, already sorted by
    std::sort (any sorted order); [fit]: the least-squares solve, arbitrary. *)
Definition setMapPolyCoeffs (samples : list R) (fit : list (R * R) -> list R) (c : camera) : outcome camera :=
  let funcGraph := map (fun r => (r, atan2 r (calcUnmapPoly (unmapPolyDeg c) (unmapPolyCoeffs c) r))) samples in
  if decreasing_somewhere funcGraph then Throw
  else Ok {| width := width c; height := height c; unmapPolyDeg := unmapPolyDeg c;
             unmapPolyCoeffs := unmapPolyCoeffs c; center := center c; scale := scale c;
             maxRadius := maxRadius c; minZ := minZ c; maxAngle := maxAngle c;
             mapPolyCoeffs := fit funcGraph |}.

(** CameraModel.cpp 16-28 (and 48-55 for the pinhole camera): the members before normalize(). *)
Definition raw (w h : Z) (sc : R) (ctr : pt) (coeffs : list R) : camera :=
  {| width := w; height := h; unmapPolyDeg := length coeffs; unmapPolyCoeffs := coeffs;
     center := ctr; scale := sc; maxRadius := 0; minZ := 0; maxAngle := 0; mapPolyCoeffs := [] |}.
Definition pinhole_raw (w h : Z) (f cx cy : R) : camera :=
  {| width := w; height := h; unmapPolyDeg := 0; unmapPolyCoeffs := [f];
     center := P2 cx cy; scale := 1; maxRadius := 0; minZ := 0; maxAngle := 0; mapPolyCoeffs := [] |}.

(** The whole constructor. *)
Definition new_camera (samples : list R) (fit : list (R * R) -> list R) (c : camera) : outcome camera :=
  setMapPolyCoeffs samples fit (normalize c).

(** CameraModel.cpp 178-187: level [i] of camPyr *)
Definition pyr_camera (c : camera) (i : nat) : camera :=
  {| width := Z.quot (width c) (Z.shiftl 1 (Z.of_nat i)); height := Z.quot (height c) (Z.shiftl 1 (Z.of_nat i));
     unmapPolyDeg := unmapPolyDeg c; unmapPolyCoeffs := unmapPolyCoeffs c; center := center c;
     scale := scale c / IZR (Z.shiftl 1 (Z.of_nat i));
     maxRadius := maxRadius c; minZ := minZ c; maxAngle := maxAngle c; mapPolyCoeffs := mapPolyCoeffs c |}.
Definition camPyr (c : camera) (levels : nat) : list camera := map (pyr_camera c) (seq 0 levels).
