(** Model of /repo/lib/daeso/string/number.py.  A digit string is a list of characters. *)
From Coq Require Import List NArith ZArith String Ascii.
From Verif Require Import Py.
Import ListNotations.
Open Scope string_scope.
Definition dstring := list ascii.
Definition dchar (d : N) : ascii := ascii_of_N (48 + d).
(** Python: str(n) for an int.  Decimal digits, least significant first, then reversed; the fuel is the number of bits. *)
Fixpoint rdigits (fuel : nat) (n : N) : list N :=
  match fuel with
  | O => []
  | S f => if (n <? 10)%N then [n] else (n mod 10)%N :: rdigits f (n / 10)
  end.
Definition str_N (n : N) : dstring := rev (map dchar (rdigits (S (N.size_nat n)) n)).
Definition str_Z (z : Z) : dstring :=
  match z with Zneg p => "-"%char :: str_N (Npos p) | _ => str_N (Z.to_N z) end.
(** number.py 79-108 *)
Definition triple_to_word : list (string * string) :=
  [("000", ""); ("001", "een"); ("002", "twee"); ("003", "drie"); ("004", "vier"); ("005", "vijf"); ("006", "zes");
   ("007", "zeven"); ("008", "acht"); ("009", "negen"); ("010", "tien"); ("011", "elf"); ("012", "twaalf"); ("013", "dertien");
   ("014", "veertien"); ("015", "vijftien"); ("016", "zestien"); ("017", "zeventien"); ("018", "achttien"); ("019", "negentien");
   ("020", "twintig"); ("030", "dertig"); ("040", "veertig"); ("050", "vijftig"); ("060", "zestig"); ("070", "zeventig");
   ("080", "tachtig"); ("090", "negentig")].
Definition word_of (digits : dstring) : res string := dread String.eqb triple_to_word (string_of_list_ascii digits).
(** number.py 113-122 *)
Definition triple_modifiers : list string :=
  [""; "duizend "; " miljoen "; " miljard "; " biljoen "; " biljard "; " triljoen "; " triljard "].
(** number.py 125-154.  The recursive call (line 144) has first digit "0", so one level of it suffices:
    [low] is the part of the function reached with d1 = "0". *)
Definition low_to_words (d2 d3 : ascii) : res string :=
  match word_of ["0"%char; d2; d3] with
  | Ok w => Ok w
  | Err _ =>
    w <- (if Ascii.eqb d3 "0" then Ok "" else u <- word_of ["0"; "0"; d3]%char ;; Ok (u ++ "en")) ;;
    if Ascii.eqb d2 "0" then Ok w else t <- word_of ["0"; d2; "0"]%char ;; Ok (w ++ t)
  end.
Definition digit_triple_to_words (digits : dstring) : res string :=
  match word_of digits with
  | Ok w => Ok w
  | Err _ =>
    match digits with
    | [d1; d2; d3] =>
      w <- (if orb (Ascii.eqb d1 "0") (Ascii.eqb d1 "1") then Ok "" else word_of ["0"; "0"; d1]%char) ;;
      if Ascii.eqb d1 "0" then low_to_words d2 d3
      else r <- low_to_words d2 d3 ;; Ok ((w ++ "honderd") ++ r)
    | _ => Err ValueError
    end
  end.
Definition rjust3 (s : dstring) : dstring := (repeat "0"%char (3 - List.length s) ++ s)%list.
(** number.py 51-67: the while loop, one step per triple *)
Fixpoint spell_loop (fuel : nat) (s : dstring) (i : nat) (words : string) : res string :=
  match s with
  | [] => Ok words
  | _ =>
    match fuel with
    | O => Err OutOfFuel
    | S f =>
      let triple := rjust3 (skipn (List.length s - 3) s) in
      w <- (if andb (Nat.eqb i 0) (String.eqb (string_of_list_ascii triple) "000") then Ok "nul"
            else if andb (Nat.eqb i 1) (String.eqb (string_of_list_ascii triple) "001") then
              m <- get triple_modifiers i ;; Ok (m ++ words)
            else t <- digit_triple_to_words triple ;; m <- get triple_modifiers i ;; Ok ((t ++ m) ++ words)) ;;
      spell_loop f (firstn (List.length s - 3) s) (S i) w
    end
  end.
(** Python: str.strip(), for words made of letters and blanks *)
Fixpoint lstrip (l : list ascii) : list ascii := match l with c :: r => if Ascii.eqb c " " then lstrip r else l | [] => [] end.
Definition strip (w : string) : string := string_of_list_ascii (rev (lstrip (rev (lstrip (list_ascii_of_string w))))).
(** number.py 33-70 *)
Definition spell_out_number (n : Z) (prefer_hundreds : bool) : res string :=
  let s := str_Z n in
  match s with
  | [a; b; c; d] =>
    if andb (negb (Ascii.eqb b "0")) prefer_hundreds then
      x <- digit_triple_to_words ["0"%char; a; b] ;; y <- digit_triple_to_words ["0"%char; c; d] ;;
      Ok ((x ++ "honderd") ++ y)
    else w <- spell_loop 4 s 0 "" ;; Ok (strip w)
  | _ => w <- spell_loop (List.length s) s 0 "" ;; Ok (strip w)
  end.
