(** * Model of the readers and writers of machines: [Code/IO/TM_Record.py], [Code/IO/StdText.py],
      [Code/IO/Proto.py], [Code/IO/BBC.py] and the big integers of [Code/Halting_Lib.py]

    Strings are lists of ASCII characters, bytes are integers.  Exceptions are [None].
    The protobuf library is not modelled: a record is the byte string it serializes to, a
    message with a oneof field is a sum type.  Compression (.gz, .zip) is not modelled. *)
Require Import ZArith List Lia Bool Arith Ascii.
From Verif Require Import Spec_TM M_Turing_Machine.
Import ListNotations.
Open Scope Z_scope.

Definition str := list ascii.

(** a Python loop over a list that may raise *)
Fixpoint otraverse {A} (l : list (option A)) : option (list A) :=
  match l with
  | [] => Some []
  | o :: l => match o, otraverse l with Some a, Some l => Some (a :: l) | _, _ => None end
  end.

(** ** standard text format *)

Definition digit (k : nat) : ascii := ascii_of_nat (48 + k).      (* string.digits[k] *)
Definition upper (k : nat) : ascii := ascii_of_nat (65 + k).      (* string.ascii_uppercase[k] *)
Definition in_range_code (lo n : nat) (c : ascii) : option nat :=
  let k := nat_of_ascii c in if (Nat.leb lo k && Nat.ltb k (lo + n))%bool then Some (k - lo)%nat else None.
(** [string.digits.find(c)] and so on; [None]: -1 *)
Definition find_digit (c : ascii) : option nat := in_range_code 48 10 c.
Definition find_upper (c : ascii) : option nat := in_range_code 65 26 c.
Definition find_dir (c : ascii) : option dir :=
  if Ascii.eqb c "L" then Some L else if Ascii.eqb c "R" then Some R else None.
Definition dir_char (d : dir) : ascii := match d with L => "L" | R => "R" end.

(** Macro/Turing_Machine.py lines 69-80, Transition.to_ttable_str *)
Definition to_ttable_str (t : transition nat sstate) : option str :=
  match t_cond t with
  | UNDEFINED => Some ["-"; "-"; "-"]%char
  | c =>
    if Nat.ltb (t_sym t) 10 then
      match c, t_state t with
      | HALT, _ => Some [digit (t_sym t); dir_char (t_dir t); "Z"%char]
      | _, SHalt => Some [digit (t_sym t); dir_char (t_dir t); "Z"%char]     (* ascii_uppercase[-1] *)
      | _, SRun q => if Nat.ltb q 26 then Some [digit (t_sym t); dir_char (t_dir t); upper q] else None
      end
    else None
  end.
Fixpoint join (sep : ascii) (l : list str) : str :=
  match l with
  | [] => []
  | [s] => s
  | s :: l => s ++ sep :: join sep l
  end.
(** Macro/Turing_Machine.py lines 273-281, Simple_Machine.ttable_str *)
Definition ttable_str (tab : ttable) (n m : nat) : option str :=
  if (Nat.ltb n 25 && Nat.ltb m 10)%bool then
    match otraverse (map (fun row => option_map (@concat _) (otraverse (map to_ttable_str row))) tab) with
    | Some rows => Some (join "_" rows)
    | None => None
    end
  else Some [].

(** str.isspace for ASCII *)
Definition is_space (c : ascii) : bool :=
  let k := nat_of_ascii c in (Nat.leb 9 k && Nat.leb k 13) || (Nat.leb 28 k && Nat.leb k 32).
Fixpoint lstrip (s : str) : str := match s with c :: s' => if is_space c then lstrip s' else s | [] => [] end.
Definition strip (s : str) : str := rev (lstrip (rev (lstrip s))).
(** s.split(sep) *)
Fixpoint split_on (sep : ascii) (s : str) : list str :=
  match s with
  | [] => [[]]
  | c :: s => if Ascii.eqb c sep then [] :: split_on sep s
              else match split_on sep s with w :: l => (c :: w) :: l | [] => [[c]] end
  end.
(** s.split()[0] *)
Fixpoint word (s : str) : str := match s with c :: s => if is_space c then [] else c :: word s | [] => [] end.
Definition first_word (s : str) : str := word (lstrip s).

(** IO/TM_Record.py lines 22-24: the pieces of three characters *)
Definition triple := (ascii * ascii * ascii)%type.
Fixpoint chunk3 (s : str) : option (list triple) :=
  match s with
  | [] => Some []
  | a :: b :: c :: s => option_map (cons (a, b, c)) (chunk3 s)
  | _ => None
  end.
(** lines 25-34 *)
Definition parse_trans (num_states i j : nat) (t : triple) : option (list quint) :=
  let '(a, b, c) := t in
  if (Ascii.eqb a "-" && Ascii.eqb b "-" && Ascii.eqb c "-")%bool then Some []
  else match find_digit a, find_dir b with
       | Some w, Some d =>
         let state_out := match find_upper c with
                          | Some q => if Nat.leb num_states q then SHalt else SRun q
                          | None => SHalt               (* find gives -1 *)
                          end in
         Some [Quint i j (Some w) d state_out]
       | _, _ => None
       end.
Definition row_quints {A} (f : nat -> nat -> A -> option (list quint)) (rows : list (list A)) : option (list quint) :=
  option_map (@concat _) (otraverse (concat (mapi (fun i row => mapi (fun j t => f i j t) row) rows))).
(** lines 14-36, parse_tm: the machine with its numbers of states and symbols *)
Definition parse_tm (line : str) : option (ttable * nat * nat) :=
  if existsb (Ascii.eqb " ") line then None else
  match otraverse (map chunk3 (split_on "_" (strip line))) with
  | None => None
  | Some rows =>
    let num_states := length rows in
    let max_symbol := fold_left (fun k r => Nat.max k (length r - 1)) rows O in
    match row_quints (parse_trans num_states) rows with
    | None => None
    | Some quints => option_map (fun tab => (tab, num_states, S max_symbol)) (tm_from_quintuples quints num_states (S max_symbol))
    end
  end.

(** IO/StdText.py, Writer.write_record (lines 46-58).  [halt]: the two numbers as text, of a
    machine known to halt *)
Definition write_text (tab : ttable) (n m : nat) (halt : option (str * str)) : option str :=
  match ttable_str tab n m with
  | None => None
  | Some s => Some (s ++ match halt with
                         | Some (steps, score) => [" "; "H"; "a"; "l"; "t"; " "]%char ++ steps ++ " "%char :: score
                         | None => []
                         end ++ ["010"%char])
  end.
(** file.readline(), with the line feed *)
Fixpoint readline (s : str) : str * str :=
  match s with
  | [] => ([], [])
  | c :: s => if Ascii.eqb c "010" then ([c], s) else let '(l, r) := readline s in (c :: l, r)
  end.
(** ** packed tables (IO/TM_Record.py lines 39-94) *)

Definition z_dir (d : dir) : Z := match d with L => 0 | R => 1 end.
Definition z_state (s : sstate) : Z := match s with SRun q => Z.of_nat q | SHalt => -1 end.
Definition b2z (b : bool) : Z := if b then 1 else 0.
(** lines 39-48 *)
Definition pack_trans_ints (symbol d state : Z) (is_newrow : bool) : option Z :=
  if ((-1 <=? symbol) && (symbol <? 7) && (-1 <=? state) && (state <? 7))%bool then
    let byte_int := Z.lor (Z.lor (Z.lor (symbol + 1) (Z.shiftl (state + 1) 3)) (Z.shiftl d 6)) (Z.shiftl (b2z is_newrow) 7) in
    if ((0 <=? byte_int) && (byte_int <? 256))%bool then Some byte_int else None
  else None.
(** lines 50-55 *)
Definition unpack_trans_ints (byte_int : Z) : Z * Z * Z * bool :=
  (Z.land byte_int 7 - 1, Z.land (Z.shiftr byte_int 6) 1, Z.land (Z.shiftr byte_int 3) 7 - 1,
   negb (Z.land (Z.shiftr byte_int 7) 1 =? 0)).
(** lines 58-64 *)
Definition pack_trans (t : transition nat sstate) (is_newrow : bool) : option Z :=
  match t_cond t with
  | UNDEFINED => pack_trans_ints (-1) 0 (-1) is_newrow
  | _ => pack_trans_ints (Z.of_nat (t_sym t)) (z_dir (t_dir t)) (z_state (t_state t)) is_newrow
  end.
(** lines 67-76: the array has [num_states * num_symbols] bytes; a longer table is an IndexError,
    a shorter one would leave zeros (the rows of a table all have [num_symbols] cells) *)
Definition pack_tm (tab : ttable) (n m : nat) : option (list Z) :=
  match otraverse (concat (map (fun row => mapi (fun j t => pack_trans t (Nat.eqb j 0)) row) tab)) with
  | None => None
  | Some bytes => if Nat.ltb (n * m) (length bytes) then None
                  else Some (bytes ++ repeat 0 (n * m - length bytes))
  end.
(** lines 78-91; [symbol_in] is [None] until a first row begins *)
Definition state_of (state : Z) : sstate := if state <? 0 then SHalt else SRun (Z.to_nat state).
Definition dir_of (d : Z) : dir := if d =? 0 then L else R.
Fixpoint unpack_loop (pack : list Z) (state_in : Z) (symbol_in : option nat) (quints : list quint)
  : option (list quint * Z * nat) :=
  match pack with
  | [] => match symbol_in with Some j => Some (quints, state_in, j) | None => None end
  | byte :: pack =>
    let '(symbol, d, state, is_newrow) := unpack_trans_ints byte in
    let state_in := if is_newrow then state_in + 1 else state_in in
    let symbol_in := if is_newrow then Some O else symbol_in in
    match symbol_in with
    | None => None
    | Some j =>
      let quints := if 0 <=? symbol
                    then quints ++ [Quint (Z.to_nat state_in) j (Some (Z.to_nat symbol)) (dir_of d) (state_of state)]
                    else quints in
      unpack_loop pack state_in (Some (S j)) quints
    end
  end.
Definition unpack_tm (pack : list Z) : option (ttable * nat * nat) :=
  match unpack_loop pack (-1) None [] with
  | None => None
  | Some (quints, state_in, m) =>
    let n := Z.to_nat (state_in + 1) in
    option_map (fun tab => (tab, n, m)) (tm_from_quintuples quints n m)
  end.

(** ** tables as lists of integers (lines 96-121); [tm_to_list] also overwrites symbol_out of
    the undefined transitions of the machine in memory, which is not modelled *)
Definition list_cell (t : transition nat sstate) : list Z :=
  [match t_cond t with UNDEFINED => -1 | _ => Z.of_nat (t_sym t) end; z_dir (t_dir t); z_state (t_state t)].
Record tmlist := TMList { l_states : nat; l_symbols : nat; l_table : list Z }.
Definition tm_to_list (tab : ttable) (n m : nat) : option tmlist :=
  option_map (fun l => TMList n m (concat l))
    (otraverse (map (fun a => option_map list_cell (simple_trans tab (snd a) (SRun (fst a)))) (list_prod (seq 0 n) (seq 0 m)))).
(** lines 109-121: the index [i] is never advanced *)
Definition list_quint (l : list Z) (i : nat) (a : nat * nat) : option (list quint) :=
  match firstn 3 (skipn i l) with
  | [symbol_out; dir_out; state_out] =>
    if symbol_out =? -1 then Some []
    else Some [Quint (fst a) (snd a) (Some (Z.to_nat symbol_out)) (dir_of dir_out) (state_of state_out)]
  | _ => None
  end.
Definition tm_from_list (tl : tmlist) : option (ttable * nat * nat) :=
  match otraverse (map (list_quint (l_table tl) 0) (list_prod (seq 0 (l_states tl)) (seq 0 (l_symbols tl)))) with
  | None => None
  | Some quints => option_map (fun tab => (tab, l_states tl, l_symbols tl))
                     (tm_from_quintuples (concat quints) (l_states tl) (l_symbols tl))
  end.

(** lines 123-139, write_tm and read_tm; the branch ttable_str of read_tm uses a name that is
    not imported and is not modelled *)
Inductive proto_tm := Packed (b : list Z) | Listed (l : tmlist).
Definition write_tm (tab : ttable) (n m : nat) : option proto_tm :=
  if (Nat.leb n 7 && Nat.leb m 8)%bool then option_map Packed (pack_tm tab n m) else option_map Listed (tm_to_list tab n m).
Definition read_tm (p : proto_tm) : option (ttable * nat * nat) :=
  match p with Packed b => unpack_tm b | Listed l => tm_from_list l end.

(** ** text files (IO/StdText.py) *)

(** Reader.read_record (lines 95-102): [Some None]: no record.  The record that is made of the
    machine stores it at once (TM_Record.py lines 143-156), so that a machine write_tm cannot store
    is an exception here. *)
Definition read_text (s : str) : option (option (ttable * nat * nat) * str) :=
  let '(line, rest) := readline s in
  match strip line with
  | [] => Some (None, rest)
  | line => match parse_tm (first_word line) with
            | Some (tab, n, m) => match write_tm tab n m with Some _ => Some (Some (tab, n, m), rest) | None => None end
            | None => None
            end
  end.
(** Reader.__iter__ (lines 108-112); every record takes at least one character *)
Fixpoint read_texts (fuel : nat) (s : str) : option (list (ttable * nat * nat)) :=
  match fuel with
  | O => None
  | S fuel => match read_text s with
              | None => None
              | Some (None, _) => Some []
              | Some (Some tm, rest) => option_map (cons tm) (read_texts fuel rest)
              end
  end.

(** ** record files (IO/Proto.py) *)

(** struct.pack("<L", n) and struct.unpack *)
Definition pack_len (n : Z) : option (list Z) :=
  if ((0 <=? n) && (n <? 4294967296))%bool
  then Some [n mod 256; n / 256 mod 256; n / 65536 mod 256; n / 16777216 mod 256] else None.
Definition unpack_len (l : list Z) : option Z :=
  match l with
  | [a; b; c; d] => Some (a + 256 * b + 65536 * c + 16777216 * d)
  | _ => None
  end.
(** Writer.write_record, lines 42-60; [rec]: the serialized record *)
Definition write_record (rec : list Z) : option (list Z) :=
  option_map (fun len_bytes => len_bytes ++ rec) (pack_len (Z.of_nat (length rec))).
Definition write_records (recs : list (list Z)) : option (list Z) := option_map (@concat _) (otraverse (map write_record recs)).

(** an open file is its content and a position, which a seek may move behind the end *)
Record file := File { f_data : list Z; f_pos : nat }.
Definition fread (k : nat) (f : file) : list Z * file :=
  let got := firstn k (skipn (f_pos f) (f_data f)) in
  (got, File (f_data f) (f_pos f + length got)).
Definition fseek (k : nat) (f : file) : file := File (f_data f) (f_pos f + k).
Inductive read_result (A : Type) := Eof | Broken | Got (a : A).
Arguments Eof {A}. Arguments Broken {A}. Arguments Got {A}.
(** lines 82-88 *)
Definition read_message_len (f : file) : read_result nat * file :=
  let '(len_bytes, f) := fread 4 f in
  match len_bytes with
  | [] => (Eof, f)
  | _ => match unpack_len len_bytes with Some n => (Got (Z.to_nat n), f) | None => (Broken, f) end
  end.
(** lines 91-106 *)
Definition read_record (f : file) : read_result (list Z) * file :=
  match read_message_len f with
  | (Got pb_len, f) =>
    let '(pb_bytes, f) := fread pb_len f in
    if Nat.eqb (length pb_bytes) pb_len then (Got pb_bytes, f) else (Broken, f)
  | (Eof, f) => (Eof, f)
  | (Broken, f) => (Broken, f)
  end.
(** lines 108-115 *)
Definition skip_record (f : file) : read_result unit * file :=
  match read_message_len f with
  | (Got pb_len, f) => (Got tt, fseek pb_len f)
  | (Eof, f) => (Eof, f)
  | (Broken, f) => (Broken, f)
  end.
(** __iter__, lines 117-128: the records read, and how the reading ended *)
Fixpoint read_all (fuel : nat) (f : file) : list (list Z) * bool :=
  match fuel with
  | O => ([], false)
  | S fuel => match read_record f with
              | (Got r, f) => let '(l, b) := read_all fuel f in (r :: l, b)
              | (Eof, _) => ([], true)
              | (Broken, _) => ([], false)
              end
  end.
Definition read_file (data : list Z) : list (list Z) * bool := read_all (S (length data)) (File data 0).
(** load_record, lines 131-140 *)
Fixpoint skip_records (k : nat) (f : file) : option file :=
  match k with
  | O => Some f
  | S k => match skip_record f with (Broken, _) => None | (_, f) => skip_records k f end
  end.
Definition load_record (data : list Z) (record_num : nat) : option (list Z) :=
  match skip_records record_num (File data 0) with
  | None => None
  | Some f => match read_record f with (Got r, _) => Some r | _ => None end
  end.

(** ** big integers (Halting_Lib.py lines 67-100) *)

(** hex(value) and int(text, base=16) *)
Definition hex_digit (k : Z) : ascii := ascii_of_nat (if k <? 10 then 48 + Z.to_nat k else 87 + Z.to_nat k).
Fixpoint hex_digits (fuel : nat) (v : Z) : str :=
  match fuel with
  | O => []
  | S fuel => (if v <? 16 then [] else hex_digits fuel (v / 16)) ++ [hex_digit (v mod 16)]
  end.
Definition hex (v : Z) : str :=
  let body := "0"%char :: "x"%char :: hex_digits (S (Z.to_nat (Z.log2 (Z.abs v)))) (Z.abs v) in
  if v <? 0 then "-"%char :: body else body.
Definition hex_value (c : ascii) : option Z :=
  let k := Z.of_nat (nat_of_ascii c) in
  if (48 <=? k) && (k <? 58) then Some (k - 48)
  else if (97 <=? k) && (k <? 103) then Some (k - 87)
  else if (65 <=? k) && (k <? 71) then Some (k - 55) else None.
Fixpoint hex_fold (s : str) (acc : Z) : option Z :=
  match s with
  | [] => Some acc
  | c :: s => match hex_value c with Some k => hex_fold s (16 * acc + k) | None => None end
  end.
(** only the texts that [hex] can produce are needed: optional sign, 0x, digits *)
Definition int16 (s : str) : option Z :=
  let '(neg, s) := match s with c :: s' => if Ascii.eqb c "-" then (true, s') else (false, s) | [] => (false, s) end in
  let s := match s with a :: b :: s' => if (Ascii.eqb a "0" && Ascii.eqb b "x")%bool then s' else s | _ => s end in
  match s with
  | [] => None
  | _ => option_map (fun v => if neg : bool then - v else v) (hex_fold s 0)
  end.
Inductive big_field := FInt (v : Z) | FHex (s : str) | FNone.
Definition big_int_max : Z := 2 ^ 63 - 1.
(** lines 67-84, for int values; a sint64 field raises outside of 64 bits *)
Definition set_big_int (v : Z) : option big_field :=
  if Z.abs v <=? big_int_max then
    (if ((- 2 ^ 63 <=? v) && (v <? 2 ^ 63))%bool then Some (FInt v) else None)
  else Some (FHex (hex v)).
Definition get_big_int (f : big_field) : option Z :=
  match f with FInt v => Some v | FHex s => int16 s | FNone => None end.

(** ** bbchallenge database (IO/BBC.py) *)

(** lines 24-44 *)
Definition bbc_trans (b : list Z) : option (option (Z * dir * Z)) :=
  match b with
  | [symbol; dir_int; state_byte] =>
    let state := state_byte - 1 in
    match (if dir_int =? 0 then Some R else if dir_int =? 1 then Some L else None) with
    | None => None
    | Some d => if ((state =? -1) && (symbol =? 0))%bool then Some None else Some (Some (symbol, d, state))
    end
  | _ => None
  end.
Definition bbc_quint (tm_bytes : list Z) (a : nat * nat) : option quint :=
  match bbc_trans (firstn 3 (skipn (3 * (2 * fst a + snd a)) tm_bytes)) with
  | None => None
  | Some None => Some (Quint (fst a) (snd a) None R SHalt)
  | Some (Some (symbol, d, state)) => Some (Quint (fst a) (snd a) (Some (Z.to_nat symbol)) d (state_of state))
  end.
(** lines 46-57 *)
Definition bbc_unpack_tm (tm_bytes : list Z) : option ttable :=
  match otraverse (map (bbc_quint tm_bytes) (list_prod (seq 0 5) (seq 0 2))) with
  | None => None
  | Some quints => tm_from_quintuples quints 5 2
  end.
(** Reader, lines 98-124: reading at the current position, skipping, and direct access.
    A zip member clamps a seek at its end. *)
Definition zseek (p : nat) (f : file) : file := File (f_data f) (Nat.min p (length (f_data f))).
Definition bbc_open (data : list Z) : file := zseek 30 (File data 0).
Definition bbc_read (f : file) : read_result ttable * file :=
  let '(tm_bytes, f) := fread 30 f in
  match tm_bytes with
  | [] => (Eof, f)
  | _ => if Nat.eqb (length tm_bytes) 30
         then match bbc_unpack_tm tm_bytes with Some t => (Got t, f) | None => (Broken, f) end
         else (Broken, f)
  end.
(** the value returned and the file *)
Definition bbc_skip (f : file) : bool * file :=
  let f := zseek (f_pos f + 30) f in (Nat.eqb (f_pos f) 30, f).
Definition bbc_get (f : file) (tm_num : nat) : read_result ttable * file := bbc_read (zseek (30 + tm_num * 30) f).
(** load_record, lines 140-145 *)
Definition bbc_load (data : list Z) (record_num : nat) : read_result ttable :=
  fst (bbc_read (Nat.iter record_num (fun f => snd (bbc_skip f)) (bbc_open data))).
