(** * Model of reading and writing in [cpp/src/turing_machine.cpp], of [lb_enum_continue.cpp], [lr_enum_continue.cpp]
    and of [cpp/scripts/shuffle_split.py], [merge_steps_examples.py]

    A file is a list of characters.  [PExit]: an ASSERT fails and the program exits (turing_machine.cpp lines 77-81).  As in M_Cpp integers do
    not overflow; messages, timing and the compression of the files are left out. *)
Require Import ZArith List Lia Bool Arith Ascii Permutation.
From Verif Require Import Spec_TM M_Turing_Machine M_IO M_Cpp M_CppLR.
Import ListNotations.
Open Scope nat_scope.

Inductive prog (A : Type) := PDone (a : A) | PUndefined | PExit | PFuel.
Arguments PDone {A}. Arguments PUndefined {A}. Arguments PExit {A}. Arguments PFuel {A}.
Definition pbind {A B} (p : prog A) (f : A -> prog B) : prog B :=
  match p with PDone a => f a | PUndefined => PUndefined | PExit => PExit | PFuel => PFuel end.
Definition of_outcome {A} (o : outcome A) : prog A := match o with Done a => PDone a | Undefined => PUndefined | Fuel => PFuel end.

(** ** WriteTuringMachine, lines 85-118 *)

(** lines 94-115.  A symbol is one digit and a state one letter: in all machines of the programs they are smaller than the numbers of
    symbols and states, which lines 86-87 bound; other tables are not modelled ([None]). *)
Definition cell_chars (x : lookup) : option str :=
  if lk_undecided x then Some ["-"; "-"; "-"]%char
  else if lk_symbol x <? 10 then
    match lk_state x with
    | SHalt => Some [digit (lk_symbol x); dir_char (lk_move x); "Z"%char]
    | SRun q => if q <? 26 then Some [digit (lk_symbol x); dir_char (lk_move x); upper q] else None
    end
  else None.
(** lines 93-116: the cells of one row; [None] also for an access outside of the table *)
Definition row_chars (tm : cpp_tm) (in_state : nat) : option str :=
  option_map (@concat _) (otraverse (map (fun in_symbol => match c_lookup tm in_state in_symbol with Some x => cell_chars x | None => None end)
    (seq 0 (c_symbols tm)))).
Definition write_cpp (tm : cpp_tm) : prog str :=
  if ((c_states tm <? 26) && (c_symbols tm <? 10))%bool then
    match otraverse (map (row_chars tm) (seq 0 (c_states tm))) with
    | Some rows => PDone (join "_" rows)
    | None => PUndefined
    end
  else PExit.

(** ** ReadTuringMachine, lines 120-173 *)

Definition newline : ascii := "010"%char.
(** std::getline, line 123: the line without the line feed and what follows; [None] at the end of the file *)
Fixpoint upto_newline (s : str) : str * str :=
  match s with
  | [] => ([], [])
  | c :: s => if Ascii.eqb c newline then ([], s) else let '(l, r) := upto_newline s in (c :: l, r)
  end.
Definition getline (s : str) : option (str * str) := match s with [] => None | _ => Some (upto_newline s) end.
(** lines 125-128 *)
Definition ends_tm (c : ascii) : bool := existsb (Ascii.eqb c) [" "; newline; "009"; ","; "#"; "|"]%char.
Fixpoint trim (s : str) : str := match s with [] => [] | c :: s => if ends_tm c then [] else c :: trim s end.
(** lines 136-161, the loop over one row: the row and what is left.  The character behind the end of a string is 0, so that the ASSERTs
    fail; three characters are left out for a '-', whatever they are (lines 138-140). *)
Fixpoint read_row (s : str) : prog (list lookup * str) :=
  match s with
  | [] => PDone ([], [])
  | a :: s1 =>
    if Ascii.eqb a "_" then PDone ([], s)
    else if Ascii.eqb a "-" then
      match s1 with
      | _ :: _ :: s3 => pbind (read_row s3) (fun r => PDone (empty_trans :: fst r, snd r))
      | _ => PDone ([empty_trans], [])
      end
    else match find_digit a, s1 with
         | Some w, b :: s2 =>
           match find_dir b, s2 with
           | Some d, c :: s3 =>
             match (if Ascii.eqb c "Z" then Some SHalt else option_map SRun (find_upper c)) with
             | Some q => pbind (read_row s3) (fun r => PDone (Lookup w d q false :: fst r, snd r))
             | None => PExit
             end
           | _, _ => PExit
           end
         | _, _ => PExit
         end
  end.
(** lines 130-165; every turn takes a character *)
Fixpoint read_rows (fuel : nat) (s : str) : prog (list (list lookup)) :=
  match s, fuel with
  | [], _ => PDone []
  | _, O => PFuel
  | _, S fuel => pbind (read_row s) (fun r => pbind (read_rows fuel (tl (snd r))) (fun rows => PDone (fst r :: rows)))
  end.
Definition read_cpp (line : str) : prog cpp_tm :=
  pbind (read_rows (length line) (trim line)) (fun rows => match table_tm rows with Some tm => PDone tm | None => PUndefined end).

(** ** lr_enum_continue.cpp lines 30-40, lb_enum_continue.cpp lines 22-35: every machine of the file is enumerated, one after the other.
    Every turn of the loop takes a line. *)
Fixpoint from_file {F} (enumerate : cpp_tm -> F -> outcome F) (turns : nat) (file : str) (s : F) : prog F :=
  match getline file, turns with
  | None, _ => PDone s
  | _, O => PFuel
  | Some (line, rest), S turns => pbind (read_cpp line) (fun tm => pbind (of_outcome (enumerate tm s)) (from_file enumerate turns rest))
  end.
(** lr_enum_continue.cpp lines 14-43 *)
Definition lr_enum_continue (file : str) (max_steps : nat) (allow_no_halt only_unknown : bool) (fuel : nat) : prog lr_files :=
  from_file (fun tm => cpp_enumerate (lr_filter_tm only_unknown max_steps) allow_no_halt fuel [tm]) (length file) file lr_init.
(** lb_enum_continue.cpp lines 14-39.  There is no file of nonhalting machines: [lb_nonhalt] of the result is not written. *)
Definition lb_enum_continue (file : str) (max_steps fuel : nat) : prog lazy_beaver :=
  from_file (fun tm => cpp_enumerate (lb_filter max_steps) false fuel [tm]) (length file) file lb_init.

(** the file of the undecided machines of lr_enum (lin_recur_enumerator.cpp lines 133-134) and that of the machines that did not halt of
    lb_enum (lazy_beaver_enumerator.cpp lines 81-82) *)
Fixpoint tms_text (tms : list cpp_tm) : prog str :=
  match tms with
  | [] => PDone []
  | tm :: tms => pbind (write_cpp tm) (fun s => pbind (tms_text tms) (fun t => PDone (s ++ newline :: t)))
  end.

(** ** scripts/shuffle_split.py lines 17-26 *)

(** round(a / b) of Python.  The floating point numbers of lines 21-22 are exact here. *)
Definition round_div (a b : nat) : nat :=
  let q := a / b in let r := a mod b in
  if 2 * r <? b then q else if b <? 2 * r then S q else if Nat.even q then q else S q.
(** the lines with their line feeds, after random.shuffle *)
Definition shuffle_split (lines : list str) (num_chunks : nat) : list (list str) :=
  let break i := round_div (length lines * i) num_chunks in
  map (fun i => firstn (break (S i) - break i) (skipn (break i) lines)) (seq 0 num_chunks).
Definition file_of (lines : list str) : str := concat (map (fun l => l ++ [newline]) lines).

(** ** scripts/merge_steps_examples.py *)

(** lines 18-30: the dictionary, and its items in the order of the keys (a later example takes the place of an earlier one).
    A line is the number and the text of the machine that are written there. *)
Fixpoint put_step (k : nat) (tm : str) (d : list (nat * str)) : list (nat * str) :=
  match d with
  | [] => [(k, tm)]
  | (k', tm') :: d' => if k <? k' then (k, tm) :: d else if Nat.eqb k k' then (k, tm) :: d' else (k', tm') :: put_step k tm d'
  end.
Definition merge_steps (files : list (list (nat * str))) : list (nat * str) :=
  fold_left (fun d x => put_step (fst x) (snd x) d) (concat files) [].
(** lines 37-41: all numbers between two neighbours *)
Fixpoint holes (d : list (nat * str)) : list nat :=
  match d with
  | [] => []
  | x :: d' => match d' with [] => [] | y :: _ => seq (S (fst x)) (fst y - S (fst x)) ++ holes d' end
  end.
(** lines 35-44: the numbers printed and their total number *)
Definition merge_holes (n : nat) (files : list (list (nat * str))) : list nat * nat :=
  let h := holes (merge_steps files) in (firstn n h, length h).
