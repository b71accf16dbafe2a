(** * Simulation input files and the whole simulation run.

    Models /repo/src/model/dfcxx/lib/dfcxx/simulator.cpp:23-46 (readInput), :242-269
    (valueToBinary, writeOutput), :271-316 (genHeader) and :318-356 (simulate).  The
    template expansion (vcd.tpl) is represented by the dictionary that is filled:
    a list of header entries, a list of tick sections and the final tick. *)
From Coq Require Import ZArith Bool String Ascii.
From Coq Require Import DecimalString Decimal.
From stdpp Require Import gmap list strings.
From Verif Require Import Types Word Value Graph GraphSpec Sim.
Local Open Scope Z_scope.

(** simulator.h:34 *)
Definition buf_size : nat := 200.

(** [std::getline] on a whole file: split at newlines; text after the last newline is
    a line only if it is not empty *)
Definition nl : ascii := "010"%char.
Fixpoint getlines (s : string) (cur : string) : list string :=
  match s with
  | EmptyString => if String.eqb cur "" then [] else [cur]
  | String c s' => if Ascii.eqb c nl then cur :: getlines s' ""
                   else getlines s' (cur ++ String c "")%string
  end.

(** [line.find(' ')] and the two [substr] calls, :33-43 *)
Fixpoint split_space (s : string) : option (string * string) :=
  match s with
  | EmptyString => None
  | String c s' =>
      if Ascii.eqb c " " then Some (EmptyString, s')
      else match split_space s' with Some (a, b) => Some (String c a, b) | None => None end
  end.
Definition parse_line (s : string) : option (string * string) :=
  match split_space s with
  | Some (a, b) => if String.eqb a "" || String.eqb b "" then None else Some (a, b)
  | None => None
  end.

(** [std::stoul(s, 0, 16)]: leading white space, optional sign, optional 0x, digits up
    to the first other character; throws if there is no digit or the value does not
    fit 64 bits; a minus sign negates modulo 2^64 *)
Definition in_range (lo hi c : ascii) : bool :=
  (N.leb (N_of_ascii lo) (N_of_ascii c) && N.leb (N_of_ascii c) (N_of_ascii hi))%bool.
Definition hex_digit (c : ascii) : option Z :=
  let n := Z.of_N (N_of_ascii c) in
  if in_range "0" "9" c then Some (n - 48)
  else if in_range "a" "f" c then Some (n - 87)
  else if in_range "A" "F" c then Some (n - 55)
  else None.
Definition is_ws (c : ascii) : bool := Ascii.eqb c " " || in_range "009" "013" c.
Fixpoint skip_ws (s : string) : string :=
  match s with String c s' => if is_ws c then skip_ws s' else s | _ => s end.
Fixpoint scan_hex (s : string) (acc : Z) : Z :=
  match s with
  | String c s' => match hex_digit c with Some d => scan_hex s' (16 * acc + d) | None => acc end
  | EmptyString => acc
  end.
Definition starts_digit (s : string) : bool :=
  match s with String c _ => match hex_digit c with Some _ => true | None => false end | _ => false end.
Definition strip_0x (s : string) : string :=
  match s with
  | String "0" (String x s') => if (Ascii.eqb x "x" || Ascii.eqb x "X") && starts_digit s' then s' else s
  | _ => s
  end.
Definition stoul (s : string) : simres Z :=
  let s := skip_ws s in
  let '(neg, s) := match s with
                   | String "-" s' => (true, s') | String "+" s' => (false, s') | _ => (false, s) end in
  if starts_digit s then
    let v := scan_hex (strip_0x s) 0 in
    if v <? two64 then SOk (if neg : bool then w64 (- v) else v) else SThrow
  else SThrow.

(** [IOVars]: name -> 200 values, zero-initialised when a name is first used *)
Notation iovars := (gmap string (list Z)).
Definition write (d : iovars) (name : string) (i : nat) (v : Z) : simres iovars :=
  let buf := default (replicate buf_size 0) (d !! name) in
  if Nat.ltb i (length buf) then SOk (<[name := <[i := v]> buf]> d) else SUndef.

(** readInput, :23-46: the rest of the file, the buffers and the block count.  The
    line is fetched before the index is tested, so when the buffer is full the line
    just read is lost. *)
Fixpoint read_input (lines : list string) (ind : nat) (one : bool) (d : iovars)
  : simres (list string * iovars * nat) :=
  match lines with
  | [] => SOk ([], d, if one then S ind else 0%nat)
  | line :: rest =>
      if Nat.ltb ind buf_size then
        if String.eqb line "" then read_input rest (S ind) one d
        else match parse_line line with
             | None => SOk (rest, d, 0%nat)
             | Some (name, val) =>
                 sbind (stoul val) (fun v =>
                 sbind (write d name ind v) (fun d' => read_input rest ind true d'))
             end
      else SOk (rest, d, if one then S ind else 0%nat)
  end.

(** [inData.at(name)[ind]] *)
Definition tick_inp (d : iovars) (i : nat) (name : string) : option Z :=
  match d !! name with Some buf => buf !! i | None => None end.

(** std::to_string *)
Definition dec (n : nat) : string := NilEmpty.string_of_uint (Nat.to_uint n).

(** valueToBinary, :242-250; shifting a 64-bit value by 64 or more is undefined *)
Fixpoint bin_digits (v : Z) (width : nat) : string :=
  match width with
  | O => EmptyString
  | S k => String (if Z.testbit v (Z.of_nat k) then "1" else "0") (bin_digits v k)
  end%char.
Definition value_to_binary (v : Z) (width : Z) : simres string :=
  if width <=? 64 then SOk (bin_digits v (Z.to_nat width)) else SUndef.

(** the dictionary that vcd.tpl prints *)
Record section_ := mkSection { s_tick : nat; s_values : list (string * string) (* value, name *) }.
Record vcd := mkVcd { v_vars : list (Z * string); v_ticks : list section_; v_final : nat }.

Section Run.
Variable F : fltops.
Variable w : world.
Variable order : list nat.                 (** sorted nodes *)
Variable hash : list nat -> list nat.      (** iteration order of an unordered_map *)

Definition node_name (n : nat) : string := match w_nodes w !! n with Some nd => n_name nd | None => "" end.
Definition node_bits (n : nat) : Z :=
  match type_of w n with Some t => total_bits t | None => 0 end.
Definition is_input (n : nat) : bool :=
  match w_nodes w !! n with Some nd => match n_op nd with IN => true | _ => false end | None => false end.

(** genHeader/getName, :284-298, over the iteration order of [vals] *)
Fixpoint gen_names (keys : list nat) (counter : nat) : list (nat * string) :=
  match keys with
  | [] => []
  | n :: keys' =>
      if String.eqb (node_name n) "" then (n, "node" ++ dec counter)%string :: gen_names keys' (S counter)
      else (n, node_name n) :: gen_names keys' counter
  end.

Definition keys_of (v : gmap nat Z) : list nat := hash (map fst (map_to_list v)).
Definition id_of (ids : list (nat * string)) (n : nat) : simres string :=
  match find (fun p => Nat.eqb (fst p) n) ids with Some p => SOk (snd p) | None => SThrow end.

(** writeOutput, :252-269 *)
Fixpoint write_values (v : gmap nat Z) (ids : list (nat * string)) (keys : list nat)
  : simres (list (string * string)) :=
  match keys with
  | [] => SOk []
  | n :: keys' =>
      sbind (value_to_binary (vget v n) (node_bits n)) (fun b =>
      sbind (id_of ids n) (fun name =>
      sbind (write_values v ids keys') (fun rest => SOk ((b, name) :: rest))))
  end.

(** one execution of the inner loop body, :330-342.  An index beyond the buffer is
    only dereferenced when the kernel has an input. *)
Definition one_tick (d : iovars) (i : nat) (v : gmap nat Z) : simres (gmap nat Z) :=
  if Nat.leb buf_size i && existsb is_input order then SUndef
  else run_sim F w (tick_inp d i) v order.

Record st := mkSt { st_vals : gmap nat Z; st_ids : option (list (nat * string)); st_ticks : list section_ }.

Fixpoint chunk (d : iovars) (start : nat) (i : nat) (todo : nat) (s : st) : simres st :=
  match todo with
  | O => SOk s
  | S todo' =>
      sbind (one_tick d i (st_vals s)) (fun v =>
      let ids := match st_ids s with Some ids => ids | None => gen_names (keys_of v) 0 end in
      sbind (write_values v ids (keys_of v)) (fun vals =>
      chunk d start (S i) todo' (mkSt v (Some ids) (st_ticks s ++ [mkSection (start + i) vals]))))
  end.

(** the outer loop; [fuel] bounds the number of readInput calls, each of which takes a
    line from the file ([None]: not enough fuel) *)
Fixpoint loop (fuel : nat) (lines : list string) (d : iovars) (start : nat) (s : st)
  : option (simres (st * nat)) :=
  match fuel with
  | O => None
  | S fuel' =>
      match read_input lines 0 false d with
      | SOk (rest, d', count) =>
          match count with
          | O => Some (SOk (s, start))
          | _ => match chunk d' start 0 count s with
                 | SOk s' => loop fuel' rest d' (start + count) s'
                 | SFail => Some SFail | SThrow => Some SThrow | SUndef => Some SUndef
                 end
          end
      | SFail => Some SFail | SThrow => Some SThrow | SUndef => Some SUndef
      end
  end.

Definition header (ids : option (list (nat * string))) : list (Z * string) :=
  match ids with Some l => map (fun p => (node_bits (fst p), snd p)) l | None => [] end.

(** simulate, :318-356 *)
Definition simulate (file : string) : option (simres (vcd * list (nat * string))) :=
  let lines := getlines file "" in
  match loop (S (length lines)) lines ∅ 1 (mkSt ∅ None []) with
  | Some (SOk (s, start)) => Some (SOk (mkVcd (header (st_ids s)) (st_ticks s) start, default [] (st_ids s)))
  | Some SFail => Some SFail | Some SThrow => Some SThrow | Some SUndef => Some SUndef
  | None => None
  end.
End Run.
