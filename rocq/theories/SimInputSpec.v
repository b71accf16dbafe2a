(** * Simulation files and VCD contents (specification side).

    Written from docs/simulation.md: a file is a list of blocks separated by an empty
    line, a block is a list of lines [name SPACE hexvalue]; the last value given for a
    name in a block counts. *)
From Coq Require Import ZArith Bool String Ascii.
From stdpp Require Import gmap list strings.
Local Open Scope Z_scope.

(** hexadecimal literals *)
Definition digit_char (c : ascii) (d : Z) : Prop :=
  0 <= d /\
  (String.get (Z.to_nat d) "0123456789abcdef" = Some c \/ String.get (Z.to_nat d) "0123456789ABCDEF" = Some c).
Inductive hex_digits : string -> Z -> Prop :=
| hd_one c d : digit_char c d -> hex_digits (String c "") d
| hd_more s v c d : hex_digits s v -> digit_char c d -> hex_digits (s ++ String c "") (16 * v + d).
Definition hex_literal (s : string) (v : Z) : Prop :=
  hex_digits s v \/ exists s', (s = "0x" ++ s' \/ s = "0X" ++ s')%string /\ hex_digits s' v.

(** one line of a block: name, text of the value, value *)
Record entry := mkEntry { e_name : string; e_text : string; e_val : Z }.
Definition char_in (c : ascii) (s : string) : Prop := exists i, String.get i s = Some c.
Definition entry_ok (e : entry) : Prop :=
  e_name e <> ""%string /\ ~ char_in " " (e_name e) /\ ~ char_in "010" (e_name e) /\
  hex_literal (e_text e) (e_val e) /\ e_val e < 2 ^ 64.
Definition block := list entry.
Definition block_ok (b : block) : Prop := b <> [] /\ Forall entry_ok b.

Definition entry_line (e : entry) : string := (e_name e ++ " " ++ e_text e)%string.
Fixpoint file_lines (bs : list block) : list string :=
  match bs with
  | [] => []
  | [b] => map entry_line b
  | b :: bs' => map entry_line b ++ ""%string :: file_lines bs'
  end.
(** every line ends with a newline *)
Fixpoint text_of (lines : list string) : string :=
  match lines with [] => ""%string | l :: ls => (l ++ String "010" (text_of ls))%string end.

(** the value a block gives to a name *)
Fixpoint last_value (b : block) (name : string) : option Z :=
  match b with
  | [] => None
  | e :: b' => match last_value b' name with
               | Some v => Some v
               | None => if String.eqb (e_name e) name then Some (e_val e) else None
               end
  end.

(** reading a printed binary number, most significant digit first *)
Fixpoint binval (s : string) : Z :=
  match s with
  | EmptyString => 0
  | String c s' => (if Ascii.eqb c "1" then 2 ^ Z.of_nat (String.length s') else 0) + binval s'
  end.
Definition binary_digits (s : string) : Prop :=
  forall i c, String.get i s = Some c -> c = "0"%char \/ c = "1"%char.
(** the text [s] shows the value [v] of a [width]-bit variable *)
Definition shows (s : string) (width v : Z) : Prop :=
  Z.of_nat (String.length s) = width /\ binary_digits s /\ binval s = v mod 2 ^ width.
