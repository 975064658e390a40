(** Model of colorprint (Utils.py 1353-1504). *)
From Coq Require Import Ascii String.
From Coq Require Import List Bool.
From Verif Require Import Base ConvertModel.
Import ListNotations.
Local Open Scope string_scope.

(** A colour argument: None, a text, or something else. *)
Inductive color_arg := C_none | C_str (s : string) | C_other.

Definition esc : string := String (ascii_of_nat 27) "[".
Definition among_upper (s : string) (l : list string) : bool := existsb (String.eqb (upper s)) l.

(** 1429-1459 for text_color and 1461-1491 for background_color: the same branches with the same lists. *)
Definition color_key (c : color_arg) : result (option string) :=
  match c with
  | C_other => Err ValueError
  | C_none => Ok None
  | C_str s =>
      if among_upper s ["GREY"; "GRAY"; "GR"] then Ok (Some "grey")
      else if among_upper s ["RED"; "R"] then Ok (Some "red")
      else if among_upper s ["GREEN"; "G"] then Ok (Some "green")
      else if among_upper s ["YELLOW"; "Y"] then Ok (Some "yellow")
      else if among_upper s ["BLUE"; "B"; "DARKBLUE"; "DARK BLUE"] then Ok (Some "blue")
      else if among_upper s ["PINK"; "P"; "PURPLE"] then Ok (Some "pink")
      else if among_upper s ["TURQUOISE"; "TURQ"; "T"; "CYAN"; "C"; "LIGHTBLUE"; "LIGHT BLUE"; "LB"] then Ok (Some "turquoise")
      else Err ValueError
  end.

(** text_colors and background_colors, 1395-1415. *)
Definition text_colors : list (option string * string) :=
  [(Some "grey", esc ++ "90m"); (Some "red", esc ++ "91m"); (Some "green", esc ++ "92m"); (Some "yellow", esc ++ "93m");
   (Some "blue", esc ++ "94m"); (Some "pink", esc ++ "95m"); (Some "turquoise", esc ++ "96m"); (None, esc ++ "39m")].
Definition background_colors : list (option string * string) :=
  [(Some "grey", esc ++ "100m"); (Some "red", esc ++ "101m"); (Some "green", esc ++ "102m"); (Some "yellow", esc ++ "103m");
   (Some "blue", esc ++ "104m"); (Some "pink", esc ++ "105m"); (Some "turquoise", esc ++ "106m"); (None, esc ++ "49m")].
Definition same_key (a b : option string) : bool :=
  match a, b with None, None => true | Some s, Some t => String.eqb s t | _, _ => false end.
(** d[key] *)
Fixpoint lookup (d : list (option string * string)) (key : option string) : result string :=
  match d with
  | [] => Err KeyError
  | (k, v) :: r => if same_key k key then Ok v else lookup r key
  end.

(** colorprint: the text written to the console, with print's newline. [bold], [underline], [italic]: whether the argument is True. *)
Definition colorprint (text : string) (text_color background_color : color_arg) (bold underline italic : bool) : result string :=
  let BOLD := if bold then esc ++ "1m" else esc ++ "21m" in
  let UNDERLINE := if underline then esc ++ "4m" else esc ++ "24m" in
  let ITALIC := if italic then esc ++ "3m" else esc ++ "23m" in
  let! tc := color_key text_color in
  let! bc := color_key background_color in
  let! b := lookup background_colors bc in
  let! t := lookup text_colors tc in
  Ok (BOLD ++ ITALIC ++ UNDERLINE ++ b ++ t ++ text ++ (esc ++ "0m") ++ String (ascii_of_nat 10) "").
