(** * C72: the text of a machine in C++ *)
Require Import ZArith List Lia Bool Arith Ascii String Permutation.
From Verif Require Import Spec_TM Spec_Rename M_Turing_Machine M_IO M_Enum P_Quint P_IO P_Stream P_Macro P_Tree P_Queue
  M_Cpp P_Cpp Prop_Cpp M_CppLR P_CppLR Prop_CppLR M_CppIO P_CppIO.
Import ListNotations.
Open Scope nat_scope.
Open Scope list_scope.

(** What may stand behind a machine on its line: nothing, or text that begins with a space, tab, comma, '#' or '|'. *)
Definition remark (extra : str) : Prop := extra = [] \/ exists c e, extra = c :: e /\ In c [" "; "009"; ","; "#"; "|"]%char.
Lemma remark_ends extra : remark extra -> extra = [] \/ exists c e, extra = c :: e /\ ends_tm c = true.
Proof.
  intros [H|(c & e & -> & H)]; [now left|right]. exists c, e. split; [reflexivity|]. simpl in H.
  destruct H as [<-|[<-|[<-|[<-|[<-|[]]]]]]; reflexivity.
Qed.
Lemma trans_text_line n m t : n < 26 -> m < 10 -> wf_trans n m t -> ~ In newline (trans_text t).
Proof.
  intros Hn Hm W H. apply (text_ends n m) in H; [discriminate|exact Hn|exact Hm|]. intros row Hr. apply (wf_rows _ _ _ W row Hr).
Qed.

(** Every machine of less than 26 states and less than 10 symbols is written on one line, and is the machine that is read again, whatever remark
    follows. *)
Theorem C72_round_trip n m tm : 1 <= n < 26 -> 1 <= m < 10 -> c_states tm = n -> c_symbols tm = m -> cpp_table n m tm ->
  exists s, write_cpp tm = PDone s /\ ~ In newline s /\
  forall extra, remark extra -> exists tm', read_cpp (s ++ extra) = PDone tm' /\
    c_trans tm' = c_trans tm /\ c_states tm' = n /\ c_symbols tm' = m.
Proof.
  intros Hn Hm En Em Ht. pose proof (cpp_table_wf _ _ _ Ht) as W. exists (trans_text (c_trans tm)).
  split; [apply (write_wf n m); auto; lia|]. split; [apply (trans_text_line n m); [lia|lia|exact W]|].
  intros extra He. rewrite (read_text_of n m _ _ ltac:(lia) ltac:(lia) W (remark_ends _ He)).
  pose proof W as ((Hl & Hr) & _). unfold table_tm. destruct (c_trans tm) as [|row t] eqn:E; [simpl in Hl; lia|].
  eexists. split; [reflexivity|]. cbn [c_trans c_states c_symbols]. split; [reflexivity|]. split; [exact Hl|]. apply Hr. now left.
Qed.

(** Python reads the same machine from this text, and writes the same text for it. *)
Theorem C72_python_reads n m tm : 1 <= n < 25 -> 1 <= m < 10 -> c_states tm = n -> c_symbols tm = m -> cpp_table n m tm ->
  exists s tab, write_cpp tm = PDone s /\ parse_tm s = Some (tab, n, m) /\ ttable_str tab n m = Some s /\
    forall i j, table_of tab i j = cpp_machine tm i j.
Proof.
  intros Hn Hm En Em Ht. pose proof (cpp_table_wf _ _ _ Ht) as W. pose proof (std_to_tab _ _ _ W) as Sd.
  exists (trans_text (c_trans tm)), (to_tab (c_trans tm)). split; [apply (write_wf n m); auto; lia|]. rewrite <- same_text.
  split; [apply parse_table_text; auto; lia|]. split; [apply print_std; auto; lia|]. now apply (machine_tab n m).
Qed.

Definition of_cell (t : transition nat sstate) : lookup :=
  match t_cond t with
  | UNDEFINED => empty_trans
  | _ => Lookup (t_sym t) (t_dir t) (t_state t) false
  end.
Lemma of_tab n m tab : std_table n m tab -> wf_trans n m (map (map of_cell) tab) /\ to_tab (map (map of_cell) tab) = tab.
Proof.
  intros (Hr & Hs).
  assert (Hr' : rect n m (map (map of_cell) tab)).
  { destruct Hr as (Hl & Hr). split; [now rewrite map_length|]. intros row H. apply in_map_iff in H. destruct H as (r & <- & H).
    rewrite map_length. now apply Hr. }
  assert (Ec : forall i j, cell (map (map of_cell) tab) i j = option_map of_cell (cell tab i j)).
  { clear. intros i j. unfold cell, ttable, trans_row in *. rewrite nth_error_map. destruct (nth_error tab i) as [row|]; [|reflexivity].
    cbn [option_map]. apply nth_error_map. }
  split.
  - split; [exact Hr'|]. intros i j x. rewrite Ec. destruct (cell tab i j) as [t|] eqn:E; [|discriminate]. intros [= <-].
    destruct (Hs _ _ _ E); unfold of_cell; cbn; [now left|right; cbn; auto|right; cbn; auto].
  - apply (rect_ext n m); [now apply rect_to_tab|exact Hr|]. intros i j Hi Hj. rewrite cell_to_tab, Ec.
    destruct (cell tab i j) as [t|] eqn:E; [|reflexivity]. cbn [option_map]. f_equal. destruct (Hs _ _ _ E); reflexivity.
Qed.

(** And C++ reads the machine that Python wrote. *)
Theorem C72_reads_python qs n m tab s extra : 1 <= n < 25 -> 1 <= m < 10 -> tm_from_quintuples qs n m = Some tab ->
  ttable_str tab n m = Some s -> remark extra ->
  exists tm, read_cpp (s ++ extra) = PDone tm /\ cpp_table n m tm /\ forall i j, cpp_machine tm i j = table_of tab i j.
Proof.
  intros Hn Hm Eq Es He. pose proof (quintuples_std _ _ _ _ Eq) as Sd. destruct (of_tab _ _ _ Sd) as (W & Et).
  rewrite (print_std n m tab Sd) in Es by lia. injection Es as <-.
  assert (Ex : table_text tab = trans_text (map (map of_cell) tab)) by (rewrite <- same_text; now rewrite Et). rewrite Ex.
  rewrite (read_text_of n m _ _ ltac:(lia) ltac:(lia) W (remark_ends _ He)). unfold table_tm.
  destruct (map (map of_cell) tab) as [|row t] eqn:E; [destruct W as ((Hl & _) & _); simpl in Hl; lia|].
  eexists. split; [reflexivity|]. split.
  - pose proof (wf_rows _ _ _ W) as Hw. destruct W as ((Hl & _) & _). split; [exact Hl|]. exact Hw.
  - intros i j. rewrite <- (machine_tab n m) by exact W. cbn [c_trans]. now rewrite Et.
Qed.

Definition ascii_list (s : string) : str := list_ascii_of_string s.

(** ** What C++ does not read although Python does *)

(** Larger machines are not written, the program exits. *)
Theorem C72_large_refuted tm : 26 <= c_states tm \/ 10 <= c_symbols tm -> write_cpp tm = PExit.
Proof.
  intros H. unfold write_cpp. destruct (Nat.ltb_spec (c_states tm) 26); [|reflexivity]. destruct (Nat.ltb_spec (c_symbols tm) 10); [lia|reflexivity].
Qed.
(** A blank line is undefined behaviour, a line with a carriage return ends the program, and a halting state with any other letter than Z, which
    Python takes for halting, makes the simulator read outside of its table. *)
Theorem C72_lines_refuted :
  read_cpp [] = PUndefined /\
  (exists s tab, parse_tm (s ++ ["013"%char]) = Some (tab, 2, 2) /\ read_cpp (s ++ ["013"%char]) = PExit) /\
  (exists s tab tm, parse_tm s = Some (tab, 2, 2) /\ (exists k q a b t, halts_at (table_of tab) initial k q a b t) /\
     read_cpp s = PDone tm /\ lr_detect tm 20 = None).
Proof.
  split; [reflexivity|]. split.
  - exists (ascii_list "1RB1LB_1LA1RZ"). eexists. split; reflexivity.
  - exists (ascii_list "1RB1LB_1LA1RH"). eexists _, _. split; [reflexivity|]. split; [|split; [reflexivity|vm_compute; reflexivity]].
    exists 6, 1, 1, true. eexists. eexists 5, _, _, _. split; [reflexivity|]. split; [reflexivity|]. repeat split.
Qed.

(** The champion with two states and two symbols, with an undecided cell for the halt, and behind it what lr_enum writes. *)
Example C72_example :
  let tm := CppTM 2 2 1 1 true 1 [[Lookup 1 R (SRun 1) false; Lookup 1 L (SRun 1) false]; [Lookup 1 L (SRun 0) false; empty_trans]] in
  cpp_table 2 2 tm /\ write_cpp tm = PDone (ascii_list "1RB1LB_1LA---") /\ remark (ascii_list " | Halt 6") /\
  read_cpp (ascii_list "1RB1LB_1LA--- | Halt 6") = PDone tm.
Proof.
  cbv zeta. split; [|split; [reflexivity|split; [|reflexivity]]].
  - split; [reflexivity|]. intros row [<-|[<-|[]]]; (split; [reflexivity|]); intros x [<-|[<-|[]]]; try (now left); right; cbn; auto.
  - right. eexists _, _. split; [reflexivity|]. now left.
Qed.

Print Assumptions C72_round_trip.
Print Assumptions C72_python_reads.
Print Assumptions C72_reads_python.
Print Assumptions C72_large_refuted.
Print Assumptions C72_lines_refuted.
