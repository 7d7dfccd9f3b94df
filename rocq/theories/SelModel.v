(** The program that shows the selected points of the images of a directory: samples/selectpix/main.cpp, with the
    gradient of an image, source/util/util.cpp 151-162.  The circles drawn into the image shown and the windows are left out
    (PixelSelector.cpp 84-89, main.cpp 58-61). *)
From Coq Require Import ZArith QArith List Bool Ascii String.
From Verif Require Import Outcome PixelSelectorModel PlyModel.
Import ListNotations.
Open Scope Z_scope.
Open Scope outcome_scope.

(** A one-channel image of bytes: [g_at x y] is row [y], column [x]. *)
Record gray := { g_rows : Z; g_cols : Z; g_at : Z -> Z -> Z }.

(** cv::BORDER_REPLICATE *)
Definition replicate (n v : Z) : Z := Z.max 0 (Z.min v (n - 1)).

(** util.cpp 153-160: correlation with (-0.5, 0, 0.5), doubled *)
Definition twice_gx (im : gray) (x y : Z) : Z :=
  g_at im (replicate (g_cols im) (x + 1)) (replicate (g_rows im) y) - g_at im (replicate (g_cols im) (x - 1)) (replicate (g_rows im) y).
Definition twice_gy (im : gray) (x y : Z) : Z :=
  g_at im (replicate (g_cols im) x) (replicate (g_rows im) (y + 1)) - g_at im (replicate (g_cols im) x) (replicate (g_rows im) (y - 1)).

(** util.cpp 161: cv::magnitude, of two halves given by their doubles *)
Definition grad_norm (mag : Z -> Z -> Q) (im : gray) : image :=
  {| im_rows := g_rows im; im_cols := g_cols im; im_at := fun x y => mag (twice_gx im x y) (twice_gy im x y) |}.

(** std::string operator== and operator<: the bytes as unsigned *)
Fixpoint bytes_eqb (a b : bytes) : bool :=
  match a, b with [], [] => true | x :: a', y :: b' => Ascii.eqb x y && bytes_eqb a' b' | _, _ => false end.
Fixpoint bytes_leb (a b : bytes) : bool :=
  match a, b with
  | [], _ => true
  | _ :: _, [] => false
  | x :: a', y :: b' => if N.ltb (N_of_ascii x) (N_of_ascii y) then true else Ascii.eqb x y && bytes_leb a' b'
  end.
(** std::sort, main.cpp 43: equal names are the same, so any sorting gives this. *)
Fixpoint put_in (x : bytes) (l : list bytes) : list bytes :=
  match l with [] => [x] | y :: l' => if bytes_leb x y then x :: l else y :: put_in x l' end.
Definition sort (l : list bytes) : list bytes := fold_right put_in [] l.

(** main.cpp 10-19 *)
Definition ext : list bytes := [lit ".jpg"; lit ".png"].
Definition is_image (fname : bytes) : bool :=
  existsb (fun e => Nat.leb (List.length e) (List.length fname) && bytes_eqb (skipn (List.length fname - List.length e) fname) e) ext.

(** main.cpp 34-36 *)
Definition slashed (d : bytes) : bytes :=
  match rev d with [] => d | c :: _ => if Ascii.eqb c "/" then d else d ++ ["/"%char] end.

(** settings.h 106 *)
Definition default_pointsNum : Z := 2000.

(** main.cpp 57-58, without rounding *)
Definition pref_h (im : gray) : Z := g_rows im * 1200 / g_cols im.

Section Show.
Variable maxloc : image -> Z -> Z -> Z -> Z * Z.           (* PixelSelectorModel *)
Variable shuffle : nat -> list (Z * Z) -> list (Z * Z).
Variable mag : Z -> Z -> Q.
Variable imread : bytes -> option gray.                    (* cv::imread and cvtBgrToGray; None: the empty image *)
Variable opendir : bytes -> option (list bytes).           (* the names readdir gives; None: NULL *)
Variable fuel : nat.                                       (* for the loops of the selector *)

(** What has been shown, image after image with its points, and how it ends *)
Definition shows : Type := list (bytes * list (Z * Z)) * outcome unit.

(** main.cpp 45-63.  cv::cvtColor of an empty image and cv::resize to an empty one throw, so that the test of
    line 50 never succeeds. *)
Fixpoint show (dir : bytes) (st : ps_state) (names : list bytes) : shows :=
  match names with
  | [] => ([], Ok tt)
  | nm :: rest =>
      let fname := dir ++ nm in
      if is_image fname then
        match imread fname with
        | None => ([], Throw)
        | Some im =>
            match select maxloc shuffle fuel ps_default st (grad_norm mag im) default_pointsNum with
            | Ok (points, st') =>
                if pref_h im <=? 0 then ([], Throw)
                else let r := show dir st' rest in ((fname, points) :: fst r, snd r)
            | UB => ([], UB)
            | Abort => ([], Abort)
            | Throw => ([], Throw)
            | NoFuel => ([], NoFuel)
            end
        end
      else show dir st rest
  end.

(** main.cpp 21-66, the arguments without the name of the program; readdir(NULL) is undefined *)
Definition main (args : list bytes) : shows :=
  match args with
  | [d] =>
      match opendir d with
      | None => ([], UB)
      | Some names => show (slashed d) (ps_init ps_default) (sort names)
      end
  | _ => ([], Ok tt)
  end.
End Show.
