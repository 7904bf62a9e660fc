(** * Model of [Code/IO/Morphett.py]: the format of morphett.info, one quintuple per line

    A file is the list of its (ASCII) characters.  Exceptions are [None].  The names of states and
    symbols are strings: for machines that come from the other readers they are the numbers
    0, 1, ... as print shows them ([number_names]), for machines read in this format they are the
    names in the file.  Compressed files are not modelled. *)
Require Import ZArith List Lia Bool Arith Ascii String.
Require DecimalString.
From Verif Require Import Spec_TM M_Turing_Machine M_IO.
Import ListNotations.
Open Scope nat_scope.

(** str(k) for a natural number *)
Definition number_name (k : nat) : str := list_ascii_of_string (DecimalString.NilZero.string_of_uint (Nat.to_uint k)).
(** tm.states and tm.symbols of the machines of TM_Record.parse_tm and unpack_tm: list(range(k)) *)
Definition number_names (k : nat) : list str := map number_name (seq 0 k).

Definition blank_name : str := ["_"%char].
Definition halt_name : str := ["h"; "a"; "l"; "t"]%char.
(** DIRS[dir] (line 14) *)
Definition morphett_dir (d : dir) : str := match d with L => ["l"%char] | R => ["r"%char] end.

(** ** Writer.write_record (lines 34-49) *)

(** lines 40-49 for one cell: the line, nothing for an undefined one.  tm.states[-1] is the last
    name (line 45, for a transition that is RUNNING and whose state is -1) *)
Definition morphett_cell (states symbols : list str) (i j : nat) (t : transition nat sstate) : option str :=
  match t_cond t with
  | UNDEFINED => Some []
  | c =>
    let state_out := match c, t_state t with
                     | HALT, _ => Some halt_name
                     | _, SRun q => nth_error states q
                     | _, SHalt => nth_error (rev states) 0
                     end in
    match nth_error states i, nth_error symbols j, nth_error symbols (t_sym t), state_out with
    | Some s, Some a, Some w, Some q => Some (join " " [s; a; w; morphett_dir (t_dir t); q] ++ ["010"%char])
    | _, _, _, _ => None
    end
  end.
(** lines 35-39: the blank is renamed (an IndexError if there is no symbol) *)
Definition rename_blank (symbols : list str) : option (list str) :=
  match symbols with [] => None | _ :: l => Some (blank_name :: l) end.
Definition morphett_write (tab : ttable) (states symbols : list str) : option str :=
  match rename_blank symbols with
  | None => None
  | Some symbols =>
    option_map (@List.concat _) (otraverse (map (fun a =>
      match simple_trans tab (snd a) (SRun (fst a)) with
      | Some t => morphett_cell states symbols (fst a) (snd a) t
      | None => None
      end) (list_prod (seq 0 (List.length states)) (seq 0 (List.length symbols)))))
  end.

(** ** Reader.read_record (lines 71-95) *)

(** s.split() *)
Fixpoint split_words (cur : str) (s : str) : list str :=
  match s with
  | [] => match cur with [] => [] | _ => [rev cur] end
  | c :: s => if is_space c then match cur with [] => split_words [] s | _ => rev cur :: split_words [] s end
              else split_words (c :: cur) s
  end.
(** str.lower for ASCII *)
Definition lower (c : ascii) : ascii :=
  let k := nat_of_ascii c in if (Nat.leb 65 k && Nat.leb k 90)%bool then ascii_of_nat (k + 32) else c.
Fixpoint starts_with (p s : str) : bool :=
  match p, s with
  | [], _ => true
  | a :: p, b :: s => (Ascii.eqb a b && starts_with p s)%bool
  | _, [] => false
  end.
(** state_out.lower().startswith("halt"), line 83 *)
Definition is_halt_name (s : str) : bool := starts_with halt_name (map lower s).
Fixpoint str_eqb (x y : str) : bool :=
  match x, y with
  | [], [] => true
  | a :: x, b :: y => (Ascii.eqb a b && str_eqb x y)%bool
  | _, _ => false
  end.
(** "lr".find(word): "l" and "lr" are at 0, "r" is at 1; anything else is -1 and the transition
    gets a direction that is neither LEFT nor RIGHT, where the model stops *)
Definition find_lr (s : str) : option dir :=
  if (str_eqb s ["l"%char] || str_eqb s ["l"; "r"]%char)%bool then Some L
  else if str_eqb s ["r"%char] then Some R else None.

Record nquint := NQuint { nq_state : str; nq_symbol : str; nq_out : str; nq_dir : dir; nq_next : option str }.

(** lines 76-86 for one line: [Some None]: an empty line or only a comment *)
Definition morphett_line (line : str) : option (option nquint) :=
  let line := match split_on ";" line with l :: _ => l | [] => [] end in
  let line := filter (fun c => negb (Ascii.eqb c "!")) line in
  match strip line with
  | [] => Some None
  | line =>
    match split_words [] line with
    | [state_in; symbol_in; symbol_out; dir_out; state_out] =>
      match find_lr dir_out with
      | Some d => Some (Some (NQuint state_in symbol_in symbol_out d (if is_halt_name state_out then None else Some state_out)))
      | None => None
      end
    | _ => None
    end
  end.
(** the lines of a file; every line but the last has a line feed *)
Fixpoint file_lines (fuel : nat) (s : str) : list str :=
  match fuel with
  | O => []
  | S fuel => match s with
              | [] => []
              | _ => let '(l, r) := readline s in l :: file_lines fuel r
              end
  end.
Definition mem_str (x : str) (l : list str) : bool := existsb (str_eqb x) l.
(** lines 87-90 *)
Definition add_name (l : list str) (x : str) : list str := if mem_str x l then l else l ++ [x].
(** l.index(x); [None]: a ValueError *)
Fixpoint index_of (x : str) (l : list str) : option nat :=
  match l with
  | [] => None
  | y :: l => if str_eqb x y then Some 0 else option_map S (index_of x l)
  end.
(** Macro/Turing_Machine.py lines 300-311: names to numbers *)
Definition quint_of_names (states symbols : list str) (q : nquint) : option quint :=
  match index_of (nq_state q) states, index_of (nq_symbol q) symbols, index_of (nq_out q) symbols with
  | Some i, Some j, Some w =>
    match nq_next q with
    | None => Some (Quint i j (Some w) (nq_dir q) SHalt)
    | Some s => match index_of s states with Some k => Some (Quint i j (Some w) (nq_dir q) (SRun k)) | None => None end
    end
  | _, _, _ => None
  end.
(** lines 69-90: the machine with the names of its states and symbols *)
Definition morphett_read (s : str) : option (ttable * list str * list str) :=
  match otraverse (map morphett_line (file_lines (S (List.length s)) s)) with
  | None => None
  | Some lines =>
    let quints := flat_map (fun o => match o with Some q => [q] | None => [] end) lines in
    let states := fold_left add_name (map nq_state quints) [] in
    let symbols := fold_left add_name (map nq_symbol quints) [blank_name] in
    match otraverse (map (quint_of_names states symbols) quints) with
    | None => None
    | Some qs => option_map (fun tab => (tab, states, symbols)) (tm_from_quintuples qs (List.length states) (List.length symbols))
    end
  end.
(** lines 91-93: the record made of it stores the machine at once (TM_Record.py lines 143-156); [None]: it cannot *)
Definition morphett_record (s : str) : option (ttable * list str * list str) :=
  match morphett_read s with
  | None => None
  | Some (tab, states, symbols) =>
    match write_tm tab (List.length states) (List.length symbols) with
    | Some _ => Some (tab, states, symbols)
    | None => None
    end
  end.
