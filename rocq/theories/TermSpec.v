(** What a terminal shows: control sequences ESC [ n m ("select graphic rendition" of ECMA-48, with the bright colours of aixterm). *)
From Coq Require Import Ascii String Arith.
From Coq Require Import List Bool.
Import ListNotations.

Inductive colour := Grey | Red | Green | Yellow | Blue | Pink | Turquoise.
Inductive underlining := U_none | U_single | U_double.
Record look := { l_bold : bool; l_italic : bool; l_underline : underlining; l_text : option colour; l_back : option colour }.
Definition plain : look := {| l_bold := false; l_italic := false; l_underline := U_none; l_text := None; l_back := None |}.

Definition bright (n : nat) : option colour :=
  match n with 0 => Some Grey | 1 => Some Red | 2 => Some Green | 3 => Some Yellow | 4 => Some Blue | 5 => Some Pink | 6 => Some Turquoise | _ => None end.

(** The effect of parameter [n]. 21 is double underlining in ECMA-48; some terminals switch bold off ([bold_off]). *)
Definition sgr (bold_off : bool) (n : nat) (l : look) : look :=
  if n =? 0 then plain
  else if n =? 1 then {| l_bold := true; l_italic := l_italic l; l_underline := l_underline l; l_text := l_text l; l_back := l_back l |}
  else if n =? 3 then {| l_bold := l_bold l; l_italic := true; l_underline := l_underline l; l_text := l_text l; l_back := l_back l |}
  else if n =? 4 then {| l_bold := l_bold l; l_italic := l_italic l; l_underline := U_single; l_text := l_text l; l_back := l_back l |}
  else if n =? 21 then
    (if bold_off then {| l_bold := false; l_italic := l_italic l; l_underline := l_underline l; l_text := l_text l; l_back := l_back l |}
     else {| l_bold := l_bold l; l_italic := l_italic l; l_underline := U_double; l_text := l_text l; l_back := l_back l |})
  else if n =? 22 then {| l_bold := false; l_italic := l_italic l; l_underline := l_underline l; l_text := l_text l; l_back := l_back l |}
  else if n =? 23 then {| l_bold := l_bold l; l_italic := false; l_underline := l_underline l; l_text := l_text l; l_back := l_back l |}
  else if n =? 24 then {| l_bold := l_bold l; l_italic := l_italic l; l_underline := U_none; l_text := l_text l; l_back := l_back l |}
  else if n =? 39 then {| l_bold := l_bold l; l_italic := l_italic l; l_underline := l_underline l; l_text := None; l_back := l_back l |}
  else if n =? 49 then {| l_bold := l_bold l; l_italic := l_italic l; l_underline := l_underline l; l_text := l_text l; l_back := None |}
  else if (90 <=? n) && (n <=? 96) then {| l_bold := l_bold l; l_italic := l_italic l; l_underline := l_underline l; l_text := bright (n - 90); l_back := l_back l |}
  else if (100 <=? n) && (n <=? 106) then {| l_bold := l_bold l; l_italic := l_italic l; l_underline := l_underline l; l_text := l_text l; l_back := bright (n - 100) |}
  else l.

(** Reading text, after ESC, or in the number of a control sequence. *)
Inductive reading := R_text | R_esc | R_number (n : nat).
Definition digit (c : ascii) : option nat := let n := nat_of_ascii c in if (48 <=? n) && (n <=? 57) then Some (n - 48) else None.

(** With look [l], reading in state [r], the terminal shows these characters in these looks for the output [out], and has then
    that look. *)
Fixpoint terminal (bold_off : bool) (l : look) (r : reading) (out : string) : list (ascii * look) * look :=
  match out with
  | EmptyString => ([], l)
  | String c rest =>
      match r with
      | R_text => if Ascii.eqb c (ascii_of_nat 27) then terminal bold_off l R_esc rest
                  else let (cells, l') := terminal bold_off l R_text rest in ((c, l) :: cells, l')
      | R_esc => if Ascii.eqb c "["%char then terminal bold_off l (R_number 0) rest else terminal bold_off l R_text rest
      | R_number n =>
          match digit c with
          | Some d => terminal bold_off l (R_number (10 * n + d)) rest
          | None => if Ascii.eqb c "m"%char then terminal bold_off (sgr bold_off n l) R_text rest else terminal bold_off l R_text rest
          end
      end
  end.

(** Text without control sequences. *)
Fixpoint no_esc (s : string) : Prop := match s with EmptyString => True | String c r => c <> ascii_of_nat 27 /\ no_esc r end.
Fixpoint in_look (s : string) (l : look) : list (ascii * look) := match s with EmptyString => [] | String c r => (c, l) :: in_look r l end.

(** The colours of the documentation, with the shorter names. *)
Local Open Scope string_scope.
Definition names : list (string * colour) :=
  [("grey", Grey); ("gray", Grey); ("gr", Grey); ("red", Red); ("r", Red); ("green", Green); ("g", Green); ("yellow", Yellow); ("y", Yellow);
   ("blue", Blue); ("b", Blue); ("darkblue", Blue); ("dark blue", Blue); ("pink", Pink); ("p", Pink); ("purple", Pink);
   ("turquoise", Turquoise); ("turq", Turquoise); ("t", Turquoise); ("cyan", Turquoise); ("c", Turquoise); ("lightblue", Turquoise); ("light blue", Turquoise); ("lb", Turquoise)].
