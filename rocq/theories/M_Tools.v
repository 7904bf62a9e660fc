(** * Model of the command line tools that go through files of records:
    [Code/CTL_Filter.py], [Code/CPS_Filter.py], [Code/Reverse_Engineer_Filter.py],
    [Code/IO_Categorize.py], [Code/IO_Sort.py], [Code/IO_Count.py], [Code/Zero_Reflexive.py]

    A record is the machine and the fields of its protocol buffer message that these tools read or
    set; timing and progress messages are not modelled.  An unset number is [None]; numbers are
    integers (formulas, ExpInt, are not modelled here). *)
Require Import ZArith List Lia Bool Arith.
From Verif Require Import Spec_TM M_Turing_Machine M_Direct M_Tape M_Simulator M_Settings M_CTL M_CPS M_Filters M_LinRecur M_IO.
Import ListNotations.
Open Scope Z_scope.

(** ** io.proto: HaltStatus, QuasihaltStatus, and the parameters and results of the CTL filters *)
Inductive reason := INF_UNSPECIFIED | INF_REVERSE_ENGINEER | INF_LIN_RECUR | INF_CTL | INF_CLOSED_GRAPH.
Record halt_status := HaltStatus {
  h_decided : bool; h_halting : bool; h_steps : option Z; h_score : option Z;
  h_state : nat; h_symbol : nat; h_reason : reason }.
Record quasi_status := QuasiStatus { q_decided : bool; q_halting : bool; q_steps : option Z; q_state : nat }.
Record ctl_info := CtlInfo { i_block_size : nat; i_offset : nat; i_cutoff : Z; i_iters : nat }.
Record tm_record := TMRecord {
  t_tab : ttable; t_states : nat; t_symbols : nat;
  t_halt : halt_status; t_quasi : quasi_status; t_ctl : ctl_kind -> option ctl_info }.

(** the defaults of protocol buffers *)
Definition no_halt : halt_status := HaltStatus false false None None 0 0 INF_UNSPECIFIED.
Definition no_quasi : quasi_status := QuasiStatus false false None 0.
Definition fresh_record (tab : ttable) (n m : nat) : tm_record := TMRecord tab n m no_halt no_quasi (fun _ => None).

(** ** Halting_Lib.py lines 134-201 on these fields: what is not mentioned keeps its old value *)
Definition set_not_quasihalting (r : tm_record) : tm_record :=
  TMRecord (t_tab r) (t_states r) (t_symbols r) (t_halt r)
           (QuasiStatus true false (q_steps (t_quasi r)) (q_state (t_quasi r))) (t_ctl r).
Definition set_halting (r : tm_record) (steps score : Z) (from_state from_symbol : nat) : tm_record :=
  set_not_quasihalting
    (TMRecord (t_tab r) (t_states r) (t_symbols r)
       (HaltStatus true true (Some steps) (Some score) from_state from_symbol (h_reason (t_halt r))) (t_quasi r) (t_ctl r)).
Definition set_not_halting (r : tm_record) (why : reason) : tm_record :=
  let h := t_halt r in
  TMRecord (t_tab r) (t_states r) (t_symbols r)
    (HaltStatus true false (h_steps h) (h_score h) (h_state h) (h_symbol h) why) (t_quasi r) (t_ctl r).
(** quasihalt_status.is_decided = False *)
Definition quasi_undecided (r : tm_record) : tm_record :=
  let q := t_quasi r in
  TMRecord (t_tab r) (t_states r) (t_symbols r) (t_halt r) (QuasiStatus false (q_halting q) (q_steps q) (q_state q)) (t_ctl r).
(** set_inf_recur, lines 179-201, with its result as computed in M_LinRecur *)
Definition put_quasi (r : tm_record) (b : quasi) : tm_record :=
  match b with
  | QUndecided => quasi_undecided r
  | QNot => set_not_quasihalting r
  | QHalt k q =>
    TMRecord (t_tab r) (t_states r) (t_symbols r) (t_halt r)
             (QuasiStatus true true (Some k) (match q with SRun q => q | SHalt => 0%nat end)) (t_ctl r)
  end.

(** Lin_Recur_Detect.filter (lines 163-178) on the status of a record that has no result of this
    filter yet.  [None]: an exception *)
Definition lin_recur (fuel max_steps : nat) (find_min : bool) (r : tm_record) : option tm_record :=
  match lr_filter (simple_machine (t_tab r)) fuel max_steps find_min with
  | Some (Some (_, BHalt k sc q x)) =>
    Some (set_halting r (Z.of_nat k) (Z.of_nat sc) (match q with SRun q => q | SHalt => 0%nat end) x)
  | Some (Some (_, BInf b)) => Some (set_not_halting (put_quasi r b) INF_LIN_RECUR)
  | Some (Some (_, BNone)) => Some r
  | _ => None
  end.

(** ** CTL_Filter.py *)
Definition kind_eqb (a b : ctl_kind) : bool :=
  match a, b with CTL1, CTL1 | CTL2, CTL2 | CTL3, CTL3 | CTL4, CTL4 => true | _, _ => false end.
Record ctl_options := CtlOptions {
  co_kind : ctl_kind;
  co_block_size : option nat;   (* --block-size, None by default *)
  co_offset : nat;              (* --offset, 0 by default *)
  co_no_backsymbol : bool;
  co_cutoff : Z;
  co_min_block : nat;           (* 1 by default *)
  co_max_block : nat;           (* 0: not given *)
  co_all_offsets : bool }.

(** lines 43-60.  The assertions of Block_Macro_Machine.__init__ (Turing_Machine.py lines 359 and
    371) are checked first.  [fuel] bounds the rounds of the CTL algorithm. *)
Definition ctl_filter (fuel : nat) (kind : ctl_kind) (block_size offset : nat) (cutoff : Z) (use_backsymbol : bool)
           (r : tm_record) : option (tm_record * bool) :=
  if Nat.eqb block_size 1 || (Nat.ltb 0 block_size && Nat.ltb offset block_size) then
    match test_CTL (t_tab r) (ctl_setting block_size offset use_backsymbol (Z.to_nat 10000) (Z.to_nat 1000)) kind fuel cutoff with
    | None => None
    | Some (true, num_iters) =>
      let r := quasi_undecided (set_not_halting r INF_CTL) in
      Some (TMRecord (t_tab r) (t_states r) (t_symbols r) (t_halt r) (t_quasi r)
              (fun k => if kind_eqb k kind then Some (CtlInfo block_size offset cutoff num_iters) else t_ctl r k), true)
    | Some (false, _) => Some (r, false)
    end
  else None.

(** a loop that stops at the first success *)
Fixpoint first_success {A} (f : A -> tm_record -> option (tm_record * bool)) (l : list A) (r : tm_record)
  : option (tm_record * bool) :=
  match l with
  | [] => Some (r, false)
  | a :: l =>
    match f a r with
    | Some (r', false) => first_success f l r'
    | o => o
    end
  end.

(** lines 62-73 *)
Definition ctl_block_size (fuel : nat) (o : ctl_options) (block_size : nat) (r : tm_record) : option (tm_record * bool) :=
  if co_all_offsets o then
    first_success (fun offset => ctl_filter fuel (co_kind o) block_size offset (co_cutoff o) (negb (co_no_backsymbol o)))
                  (seq 0 block_size) r
  else ctl_filter fuel (co_kind o) block_size (co_offset o) (co_cutoff o) (negb (co_no_backsymbol o)) r.
(** lines 75-83; without --max-block-size and --block-size the block size None raises *)
Definition ctl_filter_all (fuel : nat) (o : ctl_options) (r : tm_record) : option (tm_record * bool) :=
  if Nat.ltb 0 (co_max_block o) then
    first_success (ctl_block_size fuel o) (seq (co_min_block o) (S (co_max_block o) - co_min_block o)) r
  else
    match co_block_size o with
    | Some block_size => ctl_block_size fuel o block_size r
    | None => None
    end.

(** ** CPS_Filter.py *)
(** TM_Record.clear_proto (TM_Record.py lines 167-169) *)
Definition clear_proto (r : tm_record) : tm_record := fresh_record (t_tab r) (t_states r) (t_symbols r).
Record cps_options := CpsOptions {
  po_min_block : nat; po_max_block : nat; po_max_window : nat;
  po_max_steps : Z; po_max_iters : Z; po_max_configs : Z; po_max_edges : Z }.
(** lines 21-51 and CPS.py lines 297-313; [ord_c] and [ord_b]: the orders in which sets are gone
    through *)
Definition cps_record ord_c ord_b (o : cps_options) (r : tm_record) : option tm_record :=
  let r := clear_proto r in
  match cps_filter_all (simple_machine (t_tab r)) ord_c ord_b (po_min_block o) (po_max_block o) (po_max_window o)
          (po_max_steps o) (po_max_iters o) (po_max_configs o) (po_max_edges o) with
  | None => None
  | Some true => Some (set_not_halting r INF_CLOSED_GRAPH)
  | Some false => Some r
  end.

(** ** Reverse_Engineer_Filter.py lines 83-91 *)
Definition reverse_record (r : tm_record) : option tm_record :=
  match is_infinite (t_tab r) (t_states r) (t_symbols r) with
  | None => None
  | Some true => Some (quasi_undecided (set_not_halting r INF_REVERSE_ENGINEER))
  | Some false => Some r
  end.

(** ** the loops of the three main functions (CTL_Filter.py lines 104-108, CPS_Filter.py lines
    81-85, Reverse_Engineer_Filter.py lines 100-104): the records written, and whether the end was
    reached; an exception ends the run *)
Inductive tool :=
| Tool_ctl (o : ctl_options)
| Tool_cps (o : cps_options)
| Tool_reverse.
Definition apply_tool (fuel : nat) ord_c ord_b (x : tool) (r : tm_record) : option tm_record :=
  match x with
  | Tool_ctl o => option_map fst (ctl_filter_all fuel o r)
  | Tool_cps o => cps_record ord_c ord_b o r
  | Tool_reverse => reverse_record r
  end.
Fixpoint filter_file (f : tm_record -> option tm_record) (recs : list tm_record) : list tm_record * bool :=
  match recs with
  | [] => ([], true)
  | r :: recs =>
    match f r with
    | None => ([], false)
    | Some r' => let '(out, b) := filter_file f recs in (r' :: out, b)
    end
  end.
(** several tools, each reading what the one before has written *)
Fixpoint filter_files (fuel : nat) ord_c ord_b (tools : list tool) (recs : list tm_record) : list tm_record * bool :=
  match tools with
  | [] => (recs, true)
  | x :: tools =>
    match filter_file (apply_tool fuel ord_c ord_b x) recs with
    | (out, true) => filter_files fuel ord_c ord_b tools out
    | o => o
    end
  end.

(** ** IO_Categorize.py *)
Inductive category := HaltSmall | HaltLarge | HaltUnk | QhaltSmall | QhaltLarge | QhaltUnk | Infinite | Unknown.
Definition category_eqb (a b : category) : bool :=
  match a, b with
  | HaltSmall, HaltSmall | HaltLarge, HaltLarge | HaltUnk, HaltUnk | QhaltSmall, QhaltSmall | QhaltLarge, QhaltLarge
  | QhaltUnk, QhaltUnk | Infinite, Infinite | Unknown, Unknown => true
  | _, _ => false
  end.
(** lines 41-73, the name of the file *)
Definition categorize (r : tm_record) : category :=
  if negb (h_decided (t_halt r)) then Unknown
  else if h_halting (t_halt r) then
    match h_steps (t_halt r) with
    | None => HaltUnk
    | Some steps => if steps <? 1000 then HaltSmall else HaltLarge
    end
  else if q_halting (t_quasi r) then
    match q_steps (t_quasi r) with
    | None => QhaltUnk
    | Some steps => if steps <? 1000 then QhaltSmall else QhaltLarge
    end
  else Infinite.
(** the state of OutputFiles: the records written to each file, its counter, num_written *)
Record outputs := Outputs { o_file : category -> list tm_record; o_count : category -> nat; o_written : nat }.
Definition outputs_init : outputs := Outputs (fun _ => []) (fun _ => 0%nat) 0.
(** lines 76-79 *)
Definition categorize_write (o : outputs) (r : tm_record) : outputs :=
  let c := categorize r in
  Outputs (fun x => if category_eqb x c then o_file o x ++ [r] else o_file o x)
          (fun x => if category_eqb x c then S (o_count o x) else o_count o x) (S (o_written o)).
(** lines 82-87 *)
Definition categorize_files (files : list (list tm_record)) : outputs :=
  fold_left (fun o recs => fold_left categorize_write recs o) files outputs_init.

(** ** IO_Sort.py *)
(** lines 11-16 *)
Definition sorting_func (r : tm_record) : Z := match h_score (t_halt r) with Some v => v | None => 0 end.
(** line 30: list.sort(key, reverse = True), which is stable; insertion gives the same list *)
Fixpoint insert_desc (r : tm_record) (l : list tm_record) : list tm_record :=
  match l with
  | [] => [r]
  | x :: l => if sorting_func x <=? sorting_func r then r :: x :: l else x :: insert_desc r l
  end.
Definition sort_records (l : list tm_record) : list tm_record := fold_right insert_desc [] l.

(** ** IO_Count.py lines 22-30, one file: the number of records skipped, and false if the file ends
    unexpectedly *)
Fixpoint count_loop (fuel : nat) (f : file) (file_count : nat) : nat * bool :=
  match fuel with
  | O => (file_count, false)
  | S fuel =>
    match skip_record f with
    | (Got _, f) => count_loop fuel f (S file_count)
    | (Eof, _) => (file_count, true)
    | (Broken, _) => (file_count, false)
    end
  end.
Definition count_file (data : list Z) : nat * bool := count_loop (S (length data)) (File data 0) 0.
(** lines 19-35: the total *)
Definition count_files (files : list (list Z)) : nat := fold_left (fun count data => (count + fst (count_file data))%nat) files 0%nat.

(** ** Zero_Reflexive.py *)
(** lines 9-16; the blank symbol is 0 *)
Fixpoint zero_reflexive_from (tab : ttable) (states : list nat) : option bool :=
  match states with
  | [] => Some false
  | q :: states =>
    match simple_trans tab 0 (SRun q) with
    | None => None
    | Some t =>
      if sstate_eqb (SRun q) (t_state t) || cond_eqb (t_cond t) UNDEFINED then Some true
      else zero_reflexive_from tab states
    end
  end.
Definition is_zero_reflexive (r : tm_record) : option bool := zero_reflexive_from (t_tab r) (seq 0 (t_states r)).
(** lines 28-43: the two files and the numbers printed *)
Fixpoint zero_reflexive_split (recs : list tm_record) : option (list tm_record * list tm_record * nat * nat) :=
  match recs with
  | [] => Some ([], [], 0%nat, 0%nat)
  | r :: recs =>
    match is_zero_reflexive r, zero_reflexive_split recs with
    | Some b, Some (zr, non_zr, num_zr, num_total) =>
      Some (if b : bool then (r :: zr, non_zr, S num_zr, S num_total) else (zr, r :: non_zr, num_zr, S num_total))
    | _, _ => None
    end
  end.
