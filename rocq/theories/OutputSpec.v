(** Specification vocabulary for the writers (C19-C21). *)
From Coq Require Import Ascii String ZArith List.
From Verif Require Import DsoModel Dbl PlySpec.
Import ListNotations.
Open Scope Z_scope.

(** Frames of a list of keyframes with the poses they should be exported with: the keyframe's own
    frame-to-world pose, and for a tracked frame that pose after the inverse base-to-frame motion. *)
Definition out_frames {P IP OP} (pmul : P -> P -> P) (pinv : P -> P) (l : list (kf P IP OP)) : list (Z * P) :=
  flat_map (fun k => (kf_num k, kf_pose k) ::
                     map (fun e => (fst e, pmul (kf_pose k) (pinv (snd e)))) (kf_tracked k)) l.

(** Settings for which the writer never needs the flush threshold before shutdown. *)
Definition flush_free (s : dso_settings) : Prop :=
  continueChoosing s = false \/
  (trackFromLastKf s = true /\ maxKeyFrames s <> 1) \/
  (trackFromLastKf s = false /\ maxKeyFrames s <> 2).

(** The keyframe's own file: named /kf<number>.ply, holding the exported points with finite
    coordinates. *)
Definition kf_file {P IP OP} (fmt : Z -> dbl -> list ascii)
  (exported : kf P IP OP -> list ((dbl * dbl * dbl) * (Z * Z * Z))) (k : kf P IP OP)
  (f : list ascii * list ascii) : Prop :=
  (exists d, fst f = list_ascii_of_string "/kf" ++ d ++ list_ascii_of_string ".ply" /\ denotes d (kf_num k)) /\
  exists vs, parse_ply (snd f) = Some (Z.of_nat (length vs), vs) /\
    Forall2 (vertex_words fmt 15) (filter finite_point (exported k)) vs.

(** Settings for which the exported order is increasing whatever the flush threshold. *)
Definition ordered (s : dso_settings) : Prop :=
  continueChoosing s = true -> trackFromLastKf s = false -> maxKeyFrames s <> 2.

(** The points a keyframe contributes to the cloud: all its optimised points, then the immature
    points traced at least once. *)
Definition cloud_points {P IP OP PC} (opt_point : P -> OP -> PC) (imm_point : P -> IP -> PC)
  (traced : IP -> bool) (k : kf P IP OP) : list PC :=
  map (opt_point (kf_pose k)) (kf_opt k) ++
  flat_map (fun p => if traced p then [imm_point (kf_pose k) p] else []) (kf_imm k).
