(** How TeX reads a formula (the part of math mode needed here): spaces do not count; what stands in braces, a control
    symbol like \, or any other character is one item; ^ and _ put the next item, and only this one, as a
    superscript or subscript to the item before. *)
From Coq Require Import List Bool Arith String Ascii.
From Verif Require Import PyTextSpec.
Import ListNotations.
Local Open Scope string_scope.

(** A symbol of the formula, with subscript and superscript *)
Record symbol : Type := Sym { body : string; sub : option string; sup : option string }.
Definition plain (s : string) : symbol := Sym s None None.

(** The text up to the brace that closes [depth] + 1 open ones, and what follows *)
Fixpoint up_to_close (depth : nat) (s : string) : option (string * string) :=
  match s with
  | "" => None
  | String c s' =>
      let keep r := match r with Some (a, b) => Some (String c a, b) | None => None end in
      if Ascii.eqb c "}" then match depth with O => Some ("", s') | S d => keep (up_to_close d s') end
      else if Ascii.eqb c "{" then keep (up_to_close (S depth) s')
      else keep (up_to_close depth s')
  end.
Fixpoint skip (s : string) : string := match s with String " " s' => skip s' | _ => s end.
(** The next item *)
Definition item (s : string) : option (string * string) :=
  match skip s with
  | "" => None
  | String c s' =>
      if Ascii.eqb c "{" then up_to_close 0 s'
      else if Ascii.eqb c "}" || Ascii.eqb c "^" || Ascii.eqb c "_" then None
      else if Ascii.eqb c "\" then match s' with String d r => Some (String c (String d ""), r) | "" => None end
      else Some (String c "", s')
  end.
(** A script that may follow *)
Definition script (mark : ascii) (s : string) : option (option string * string) :=
  match skip s with
  | String c s' => if Ascii.eqb c mark then match item s' with Some (a, r) => Some (Some a, r) | None => None end else Some (None, s)
  | "" => Some (None, s)
  end.
Fixpoint read_symbols (fuel : nat) (s : string) : option (list symbol) :=
  match fuel with
  | O => None
  | S f =>
      match skip s with
      | "" => Some []
      | _ =>
          match item s with
          | None => None
          | Some (a, r) =>
              match script "_" r with
              | None => None
              | Some (d, r1) =>
                  match script "^" r1 with
                  | None => None
                  | Some (u, r2) => match read_symbols f r2 with Some l => Some (Sym a d u :: l) | None => None end
                  end
              end
          end
      end
  end.
(** The symbols of a formula; None if TeX reports an error *)
Definition tex (s : string) : option (list symbol) := read_symbols (S (String.length s)) s.

(** The characters of a text, one by one *)
Fixpoint chars (s : string) : list string := match s with "" => [] | String c s' => String c "" :: chars s' end.
(** Names of letters and digits only *)
Definition alnum (c : ascii) : bool :=
  let n := nat_of_ascii c in (Nat.leb 65 n && Nat.leb n 90) || (Nat.leb 97 n && Nat.leb n 122) || (Nat.leb 48 n && Nat.leb n 57).
Fixpoint word (s : string) : bool := match s with "" => true | String c s' => alnum c && word s' end.

(** What a reader should see of a power of a variable ... *)
Definition power_symbols (x : string * nat) : list symbol :=
  let (v, d) := x in
  match d with O => [] | 1 => [plain v] | _ => [Sym v None (Some (decimal d))] end.
(** ... and what is seen if only the first digit of the exponent is raised *)
Definition first_digit_raised (x : string * nat) : list symbol :=
  let (v, d) := x in
  match d with
  | O => [] | 1 => [plain v]
  | _ => match decimal d with String c s => Sym v None (Some (String c "")) :: map plain (chars s) | "" => [] end
  end.
(** A product of [l] with nothing in it is shown as 1. *)
Definition or_one (l : list symbol) : list symbol := match l with [] => [plain "1"] | _ => l end.
(** x x y for the derivative by x, x, y *)
Definition by_variables (l : list (string * nat)) : list symbol := flat_map (fun x => repeat (plain (fst x)) (snd x)) l.
(** x + 2 \, y for the shift by 2 in x *)
Definition shifted (x : string * nat) : list symbol :=
  let (v, d) := x in plain v :: match d with O => [] | _ => plain "+" :: map plain (chars (decimal d)) end.
Fixpoint separated (l : list (list symbol)) : list symbol :=
  match l with [] => [] | [a] => a | a :: l' => a ++ plain "\," :: separated l' end.
