(** * Model of the loading and finding of machines: [Code/IO/General.py], load_record of
      [Code/IO/StdText.py], [Code/IO/Proto.py] and [Code/IO/Morphett.py], [Code/Find_Record.py],
      [Code/IO_Find.py]

    The files are a function from names to bytes ([None]: open raises), the decompression of gzip and
    the parsing of a protobuf message (down to the field tm) are parameters.  Text is ASCII; other
    bytes are an exception here.  Exceptions are [None] or [Raised]. *)
Require Import ZArith List Bool Arith Ascii.
From Verif Require Import Spec_TM M_Turing_Machine M_IO M_Morphett.
Import ListNotations.
Open Scope nat_scope.

Definition machine := (ttable * nat * nat)%type.

(** ** names *)

(** IO/General.py line 57: re.fullmatch of ([0-9][LR][A-Z]|---|_)+ .  The alternatives begin with
    different characters, so that there is nothing to go back to. *)
Definition is_some {A} (o : option A) : bool := match o with Some _ => true | None => false end.
Fixpoint pieces (s : str) : bool :=
  match s with
  | [] => true
  | a :: s =>
    if Ascii.eqb a "_" then pieces s
    else match s with
         | b :: c :: s =>
           ((Ascii.eqb a "-" && Ascii.eqb b "-" && Ascii.eqb c "-" || is_some (find_digit a) && is_some (find_dir b) && is_some (find_upper c))
            && pieces s)%bool
         | _ => false
         end
  end.
Definition is_literal (s : str) : bool := match s with [] => false | _ => pieces s end.

(** int(text): white space around, a sign, digits with single underscores between them (the limit of
    4300 digits is not modelled) *)
Fixpoint digits_val (acc : Z) (after_digit : bool) (s : str) : option Z :=
  match s with
  | [] => if after_digit then Some acc else None
  | c :: s => if Ascii.eqb c "_" then (if after_digit then digits_val acc false s else None)
              else match find_digit c with Some k => digits_val (10 * acc + Z.of_nat k)%Z true s | None => None end
  end.
Definition py_int (s : str) : option Z :=
  match strip s with
  | c :: s => if Ascii.eqb c "-" then option_map Z.opp (digits_val 0 false s)
              else if Ascii.eqb c "+" then digits_val 0 false s
              else digits_val 0 false (c :: s)
  | [] => None
  end.

(** pathlib: the last component, and its suffixes *)
Definition path_name (path : str) : str :=
  last (filter (fun w => negb (str_eqb w [] || str_eqb w ["."%char])) (split_on "/" path)) [].
Fixpoint lstrip_dots (s : str) : str := match s with c :: s' => if Ascii.eqb c "." then lstrip_dots s' else s | [] => [] end.
Definition suffixes (path : str) : list str :=
  let name := path_name path in
  if Ascii.eqb (last name " "%char) "." then []
  else map (cons "."%char) (tl (split_on "." (lstrip_dots name))).
Definition suffix_pb : str := ["."; "p"; "b"]%char.
Definition suffix_gz : str := ["."; "g"; "z"]%char.
Definition suffix_morphett : str := ["."; "m"; "o"; "r"; "p"; "h"; "e"; "t"; "t"]%char.
(** lines 14-31, guess_module *)
Inductive module := Proto | Morphett | StdText.
Definition guess_module (path : str) : module :=
  if mem_str suffix_pb (suffixes path) then Proto
  else if mem_str suffix_morphett (suffixes path) then Morphett
  else StdText.
Definition is_gz (path : str) : bool := mem_str suffix_gz (suffixes path).

(** open(name, "r"): ASCII, with universal newlines *)
Fixpoint text_of (l : list Z) : option str :=
  match l with
  | [] => Some []
  | b :: l =>
    if ((0 <=? b) && (b <? 128))%Z%bool then
      if (b =? 13)%Z then
        match l with
        | c :: l' => if (c =? 10)%Z then option_map (cons "010"%char) (text_of l') else option_map (cons "010"%char) (text_of l)
        | [] => Some ["010"%char]
        end
      else option_map (cons (ascii_of_nat (Z.to_nat b))) (text_of l)
    else None
  end.

Section Load.
  Variable files : str -> option (list Z).
  Variable gunzip : list Z -> option (list Z).
  Variable decode : list Z -> option proto_tm.

  (** ** one record *)

  (** IO/StdText.py lines 104-106: any line, blank ones too *)
  Fixpoint skip_lines (k : nat) (s : str) : str :=
    match k with O => s | S k => skip_lines k (snd (readline s)) end.
  (** lines 115-124; range of a negative number is empty *)
  Definition load_text (s : str) (record_num : Z) : option machine :=
    match read_text (skip_lines (Z.to_nat record_num) s) with
    | Some (Some tm, _) => Some tm
    | _ => None
    end.
  (** IO/Proto.py lines 131-140 with [load_record] of M_IO *)
  Definition load_proto (data : list Z) (record_num : Z) : option machine :=
    match load_record data (Z.to_nat record_num) with
    | Some r => match decode r with Some p => read_tm p | None => None end
    | None => None
    end.
  (** IO/Morphett.py lines 99-102 *)
  Definition load_morphett (s : str) (record_num : Z) : option machine :=
    if (record_num =? 0)%Z
    then option_map (fun r => let '(tab, states, symbols) := r in (tab, length states, length symbols)) (morphett_record s)
    else None.
  (** IO/General.py lines 50-52, load_tm.  A compressed text file is opened for bytes, and parse_tm asks
      whether the string " " is in the line, line.split(";") likewise: a TypeError (if there is a line). *)
  Definition load_tm (path : str) (record_num : Z) : option machine :=
    match files path with
    | None => None
    | Some bytes =>
      match guess_module path with
      | Proto => match (if is_gz path then gunzip bytes else Some bytes) with
                 | Some data => load_proto data record_num
                 | None => None
                 end
      | Morphett => if is_gz path then match gunzip bytes with Some [] => load_morphett [] record_num | _ => None end
                    else match text_of bytes with Some s => load_morphett s record_num | None => None end
      | StdText => if is_gz path then None
                   else match text_of bytes with Some s => load_text s record_num | None => None end
      end
    end.
  (** lines 54-69, get_tm *)
  Definition get_tm (tm : str) : option machine :=
    if is_literal tm then parse_tm tm
    else if existsb (Ascii.eqb ":") tm then
      match split_on ":" tm with
      | filename :: number :: _ => match py_int number with Some record_num => load_tm filename record_num | None => None end
      | _ => None
      end
    else load_tm tm 0.

  (** ** all records *)

  (** a record: the field tm of the message and what its method tm() gives *)
  Definition found_record := (proto_tm * option machine)%type.
  (** Reader.__iter__ of the formats; the flag: the reading has ended without an exception *)
  Fixpoint text_records (fuel : nat) (s : str) : list found_record * bool :=
    match fuel with
    | O => ([], false)
    | S fuel =>
      match read_text s with
      | None => ([], false)
      | Some (None, _) => ([], true)
      | Some (Some (tab, n, m), rest) =>
        match write_tm tab n m with
        | Some p => let '(l, b) := text_records fuel rest in ((p, Some (tab, n, m)) :: l, b)
        | None => ([], false)
        end
      end
    end.
  Fixpoint decode_all (l : list (list Z)) (ok : bool) : list found_record * bool :=
    match l with
    | [] => ([], ok)
    | r :: l => match decode r with
                | Some p => let '(l, b) := decode_all l ok in ((p, read_tm p) :: l, b)
                | None => ([], false)
                end
    end.
  Definition proto_records (data : list Z) : list found_record * bool :=
    let '(recs, ok) := read_file data in decode_all recs ok.
  Definition morphett_records (s : str) : list found_record * bool :=
    match morphett_record s with
    | Some (tab, states, symbols) =>
      match write_tm tab (length states) (length symbols) with
      | Some p => ([(p, Some (tab, length states, length symbols))], true)
      | None => ([], false)
      end
    | None => ([], false)
    end.
  (** IO.Reader(path), lines 34-40; a compressed text file has no record that can be read, except that
      one without a line is an empty file *)
  Definition records (path : str) : list found_record * bool :=
    match files path with
    | None => ([], false)
    | Some bytes =>
      match guess_module path with
      | Proto => match (if is_gz path then gunzip bytes else Some bytes) with
                 | Some data => proto_records data
                 | None => ([], false)
                 end
      | Morphett => if is_gz path then match gunzip bytes with Some [] => morphett_records [] | _ => ([], false) end
                    else match text_of bytes with Some s => morphett_records s | None => ([], false) end
      | StdText => if is_gz path then match gunzip bytes with Some [] => ([], true) | _ => ([], false) end
                   else match text_of bytes with Some s => text_records (S (length s)) s | None => ([], false) end
      end
    end.

  Inductive found (A : Type) := Found (a : A) | NotFound | Raised.
  Arguments Found {A}. Arguments NotFound {A}. Arguments Raised {A}.
  Fixpoint bytes_eqb (x y : list Z) : bool :=
    match x, y with
    | [], [] => true
    | a :: x, b :: y => ((a =? b)%Z && bytes_eqb x y)%bool
    | _, _ => false
    end.
  (** proto.tm.ttable_packed: empty if another member of the oneof is set *)
  Definition packed_of (p : proto_tm) : list Z := match p with Packed b => b | Listed _ => [] end.
  Fixpoint first_packed (bytes : list Z) (l : list found_record) : option nat :=
    match l with
    | [] => None
    | r :: l => if bytes_eqb (packed_of (fst r)) bytes then Some 0 else option_map S (first_packed bytes l)
    end.
  (** Find_Record.py lines 11-20: the number it prints *)
  Definition find_record (tm_std : str) (path : str) : found nat :=
    match parse_tm tm_std with
    | None => Raised
    | Some (tab, n, m) =>
      match pack_tm tab n m with
      | None => Raised
      | Some bytes =>
        let '(l, ok) := records path in
        match first_packed bytes l with
        | Some i => Found i
        | None => if ok then NotFound else Raised
        end
      end
    end.

  (** IO_Find.py lines 16-31: the files are read as record files whatever their names; what is shown is
      the record with this number in that file.  A record whose table cannot be read or printed raises. *)
  Definition pb_records (path : str) : list found_record * bool :=
    match files path with
    | None => ([], false)
    | Some bytes => match (if is_gz path then gunzip bytes else Some bytes) with
                    | Some data => proto_records data
                    | None => ([], false)
                    end
    end.
  Fixpoint first_text (tm : str) (l : list found_record) (ok : bool) : found nat :=
    match l with
    | [] => if ok then NotFound else Raised
    | r :: l =>
      match snd r with
      | None => Raised
      | Some (tab, n, m) =>
        match ttable_str tab n m with
        | None => Raised
        | Some s => if str_eqb s tm then Found 0
                    else match first_text tm l ok with Found i => Found (S i) | NotFound => NotFound | Raised => Raised end
        end
      end
    end.
  Fixpoint io_find (tm : str) (paths : list str) : found (str * nat) :=
    match paths with
    | [] => NotFound
    | path :: paths =>
      let '(l, ok) := pb_records path in
      match first_text tm l ok with
      | Found i => Found (path, i)
      | NotFound => io_find tm paths
      | Raised => Raised
      end
    end.
End Load.
Arguments Found {A}. Arguments NotFound {A}. Arguments Raised {A}.
