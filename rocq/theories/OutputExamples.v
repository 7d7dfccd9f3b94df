(** Concrete runs observed by the writers. *)
From Coq Require Import Ascii String ZArith QArith List Lia.
From Verif Require Import Outcome Dbl DsoModel DsoSpec DsoExamples PlyModel PlySpec PlyProofs OutputModel OutputSpec.
Import ListNotations.
Open Scope Z_scope.

(** Settings of the demo with another window size and without bundle adjustment. *)
Definition window (s : dso_settings) (m : Z) : dso_settings :=
  {| maxKeyFrames := m; maxOptimizedPoints := maxOptimizedPoints s; shiftBetweenKeyFrames := shiftBetweenKeyFrames s;
     trackFromLastKf := trackFromLastKf s; continueChoosing := continueChoosing s;
     firstFramesSkip := firstFramesSkip s; initialMaxFrame := initialMaxFrame s; runBA := false |}.

Definition written_numbers (conv : outcome Z) (s : dso_settings) : outcome (list Z) :=
  match demo_run s demo_numbers with
  | Ok st => bind (tw_run iso_mul iso_inv conv (destroy st)) (fun w => Ok (map fst (tw_written w)))
  | _ => Throw
  end.
Definition before_shutdown (s : dso_settings) : outcome (list Z) :=
  match demo_run s demo_numbers with
  | Ok st => bind (tw_run iso_mul iso_inv inf_to_int (st_log st)) (fun w => Ok (map fst (tw_written w)))
  | _ => Throw
  end.

Lemma written_last : written_numbers (Ok INT_MAX) (demo true true true) =
  Ok [1; 4; 5; 6; 7; 8; 9; 10; 12; 13; 15; 16; 17; 19; 22; 23; 25; 26].
Proof. vm_compute. reflexivity. Qed.
Lemma written_lbo : written_numbers (Ok INT_MAX) (demo false true true) =
  Ok [1; 4; 5; 6; 7; 8; 9; 10; 12; 13; 15; 16; 17; 19; 22; 23; 25; 26].
Proof. vm_compute. reflexivity. Qed.
Lemma written_min : written_numbers (Ok INT_MIN) (demo true true true) =
  Ok [1; 4; 5; 6; 7; 8; 9; 10; 12; 13; 15; 16; 17].
Proof. vm_compute. reflexivity. Qed.
Lemma before_last : before_shutdown (demo true true true) = Ok [1; 4; 5; 6; 7; 8; 9; 10; 12; 13; 15; 16; 17].
Proof. vm_compute. reflexivity. Qed.
Lemma lbo_two_disordered : written_numbers (Ok INT_MAX) (window (demo false true true) 2) =
  Ok [1; 5; 6; 4; 8; 9; 7; 12; 10; 15; 13; 17; 16; 19; 23; 22; 25; 26].
Proof. vm_compute. reflexivity. Qed.
Lemma lbo_two_undefined : before_shutdown (window (demo false true true) 2) = UB.
Proof. vm_compute. reflexivity. Qed.
Lemma last_one_undefined : before_shutdown (window (demo true true true) 1) = UB.
Proof. vm_compute. reflexivity. Qed.

(** A printer of numbers meeting the contract (it prints numerators). *)
Definition demo_fmt (prec : Z) (x : dbl) : list ascii :=
  match x with
  | Fin q => dec (Qnum q)
  | PInf => lit "inf" | NInf => lit "-inf" | NaN => lit "nan"
  end.

Lemma demo_fmt_ok : fmt_ok demo_fmt.
Proof.
  intros prec x. destruct x; cbn [demo_fmt].
  - split; [|apply dec_plain]. unfold dec. destruct (Qnum q <? 0); [discriminate|].
    cbn [digits]. destruct (Qnum q <? 10); [discriminate|]. intros E. apply app_eq_nil in E as [_ E]. discriminate.
  - split; [discriminate|]. repeat constructor; discriminate.
  - split; [discriminate|]. repeat constructor; discriminate.
  - split; [discriminate|]. repeat constructor; discriminate.
Qed.

Definition demo_ops : list ply_op :=
  [PutPoints [(Fin 1, Fin 2, NaN); (Fin 5, Fin 6, Fin 70)] [(1, 2, 3); (255, 0, 10)]; UpdateCount;
   PutPoints (repeat (Fin 4, Fin 4, Fin 4) 9) (repeat (7, 8, 9) 12)].

Lemma demo_ply :
  bind (ply_run demo_fmt (demo_ops ++ [UpdateCount]) ply_open) (fun h => Ok (parse_ply (h_file h))) =
  Ok (Some (11, [[lit "1"; lit "2"; lit "nan"; lit "3"; lit "2"; lit "1"];
                 [lit "5"; lit "6"; lit "70"; lit "10"; lit "0"; lit "255"]] ++
                repeat [lit "4"; lit "4"; lit "4"; lit "9"; lit "8"; lit "7"] 9)).
Proof. vm_compute. reflexivity. Qed.

Lemma demo_print :
  bind (print_in_ply demo_fmt [(Fin 1, PInf, Fin 3); (Fin 5, Fin 6, Fin 70)] [(1, 2, 3); (255, 0, 10)])
       (fun f => Ok (parse_ply f)) =
  Ok (Some (1, [[lit "5"; lit "6"; lit "70"; lit "10"; lit "0"; lit "255"]])).
Proof. vm_compute. reflexivity. Qed.

(** The cloud of the demo run; immature points with even value are traced. *)
Definition demo_pt (p : iso) (x : Z) : point * color := ((Fin (inject_Z x), Fin 1, Fin 2), (1, 2, 3)).
Definition demo_cloud : outcome (option Z * nat * option (list ascii)) :=
  match demo_run (demo true true true) demo_numbers with
  | Ok st => bind (cw_run demo_fmt demo_pt demo_pt Z.even (destroy st)) (fun w =>
      Ok (option_map fst (parse_ply (h_file (cw_holder w))), List.length (cw_files w),
          option_map fst (nth_error (cw_files w) 4)))
  | _ => Throw
  end.

Lemma demo_cloud_value : demo_cloud = Ok (Some 23, 9%nat, Some (lit "/kf13.ply")).
Proof. vm_compute. reflexivity. Qed.
