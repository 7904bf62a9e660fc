(** * Property C58: the format of morphett.info *)
Require Import ZArith List Lia Bool Arith Ascii String.
From Verif Require Import Spec_TM Spec_Rename M_Turing_Machine P_Macro P_Quint M_IO P_IO P_Formats P_Permute P_Complete2 Prop_Rename M_Morphett P_Morphett.
Import ListNotations.
Open Scope nat_scope.

(** names that survive: not empty, no white space, no ";", no "!"; states that are not read as a halt *)
Definition state_names (l : list str) : Prop := NoDup l /\ forall s, In s l -> good_name s /\ is_halt_name s = false.
Definition symbol_names (l : list str) : Prop := NoDup l /\ forall s, In s l -> good_name s.

Lemma number_state_names n : state_names (number_names n).
Proof.
  split; [apply number_names_NoDup|]. intros s H. apply in_map_iff in H. destruct H as (k & <- & _).
  destruct (number_good k) as (H1 & H2 & _). auto.
Qed.
Lemma number_symbol_names m : 0 < m -> exists sy, rename_blank (number_names m) = Some sy /\ List.length sy = m /\ symbol_names sy /\ nth_error sy 0 = Some blank_name.
Proof.
  intros Hm. destruct m as [|m]; [lia|]. unfold number_names. cbn [seq map rename_blank].
  eexists. split; [reflexivity|]. split; [cbn; now rewrite map_length, seq_length|]. split; [|reflexivity].
  pose proof (number_names_NoDup (S m)) as N. unfold number_names in N. cbn [seq map] in N. inversion N as [|x l Hx N']. subst. split.
  - constructor; auto. intros H. apply in_map_iff in H. destruct H as (k & E & _). now destruct (number_good k) as (_ & _ & X).
  - intros s [<-|H]; [split; [discriminate|]; intros c [<-|[]]; repeat split; discriminate|].
    apply in_map_iff in H. destruct H as (k & <- & _). apply number_good.
Qed.

(** the two machines run alike: step by step the same up to the names, they stop at the same step
    in the corresponding cell and in the same way; an explicit halt leaves the corresponding tape *)
Definition same_machine (f g : nat -> nat) (T T' : table) : Prop :=
  runs_alike f g false T T' initial initial /\
  (forall k q s e t, halts_at T initial k q s e t -> exists t', halts_at T' initial k (f q) (g s) e t' /\ (e = true -> forall z, t' z = g (t z))) /\
  (forall k q' s' e t', halts_at T' initial k q' s' e t' -> exists q s t, q' = f q /\ s' = g s /\ halts_at T initial k q s e t) /\
  (nonhalting T initial <-> nonhalting T' initial).

Lemma same_cells_machine f g n m T T' : 0 < n -> 0 < m -> f 0 = 0 -> g 0 = 0 -> in_range n m T -> same_cells f g n m T T' -> same_machine f g T T'.
Proof.
  intros Hn Hm Hf Hg Hr Hc.
  assert (Run := fun k => same_cells_run f g n m T T' Hr Hc k initial initial (renames_initial f g false Hf Hg) Hn (fun _ => Hm)).
  assert (A : runs_alike f g false T T' initial initial).
  { intros k. specialize (Run k). destruct (steps T k initial) as [x|], (steps T' k initial) as [y|]; try contradiction.
    - destruct Run as (R & _). split; intros z [= <-]; eauto.
    - split; intros; discriminate. }
  split; [exact A|]. split; [|split].
  - intros k q s e t (k0 & c & w & d & -> & Ec & -> & -> & Est & Et). specialize (Run k0). rewrite Ec in Run.
    destruct (steps T' k0 initial) as [y|] eqn:Ey; [|contradiction]. destruct Run as (R & Hs & Ht).
    specialize (Hc (st c) (tp c (hd c)) Hs (Ht _)). rewrite Est in Hc.
    pose proof (renames_read _ _ _ _ _ R) as Rr. pose proof R as (Rs & Rh & Rt). cbn in Rh.
    destruct e.
    + exists (put (tp y) (hd y) (g w)). split.
      * exists k0, y, (g w), d. rewrite Rs, Rr. auto 10.
      * intros _ z. rewrite Et. unfold put. rewrite Rh. destruct (Z.eqb z (hd c)); auto. apply (Rt z).
    + exists (put (tp y) (hd y) 1). split; [|discriminate]. exists k0, y, 1, Spec_TM.R. rewrite Rs, Rr. auto 10.
  - intros k q' s' e t' (k0 & y & w & d & -> & Ey & -> & -> & Est & Et). specialize (Run k0). rewrite Ey in Run.
    destruct (steps T k0 initial) as [c|] eqn:Ec; [|contradiction]. destruct Run as (R & Hs & Ht).
    specialize (Hc (st c) (tp c (hd c)) Hs (Ht _)). pose proof (renames_read _ _ _ _ _ R) as Rr. pose proof R as (Rs & _).
    rewrite Rs, Rr in Est. rewrite Rs, Rr. exists (st c), (tp c (hd c)).
    destruct (T (st c) (tp c (hd c))) as [w0 d0 q0|w0 d0 e0] eqn:E; [rewrite Hc in Est; discriminate|].
    assert (e0 = e) by (destruct e0; rewrite Hc in Est; injection Est; auto). subst e0.
    exists (put (tp c) (hd c) w0). split; auto. split; auto. exists k0, c, w0, d0. auto 10.
  - unfold nonhalting. split; intros H k; specialize (H k); specialize (Run k);
      destruct (steps T k initial), (steps T' k initial); try contradiction; congruence.
Qed.

(** Writing a machine and reading the file.  It succeeds exactly if every state that is entered has
    a transition and every symbol that is written (other than the blank) is read by some transition;
    if moreover the start state has a transition, the machine read back is the same machine, with
    its states and symbols numbered in the order in which the lines mention them. *)
Theorem C58_round_trip tab states symbols sy :
  rename_blank symbols = Some sy -> std_table (List.length states) (List.length sy) tab ->
  state_names states -> symbol_names sy ->
  exists text, morphett_write tab states symbols = Some text /\
    (morphett_read text <> None <-> covered (table_of tab)) /\
    (covered (table_of tab) -> has_row (table_of tab) 0 ->
     exists tab' states' symbols' f g, morphett_read text = Some (tab', states', symbols') /\
       std_table (List.length states') (List.length symbols') tab' /\ f 0 = 0 /\ g 0 = 0 /\
       (forall i, i < List.length states -> has_row (table_of tab) i -> nth_error states' (f i) = nth_error states i) /\
       (forall j, j < List.length sy -> is_read (table_of tab) j -> nth_error symbols' (g j) = nth_error sy j) /\
       same_cells f g (List.length states) (List.length sy) (table_of tab) (table_of tab') /\
       same_machine f g (table_of tab) (table_of tab')).
Proof.
  intros Er Std (N1 & G1) (N2 & G2). eexists. split; [eapply write_ok; eauto|].
  assert (B : nth_error sy 0 = Some blank_name) by (destruct symbols; [discriminate|]; injection Er as <-; reflexivity).
  assert (M0 : 0 < List.length sy) by (apply nth_error_Some; congruence).
  split.
  - split.
    + intros H. eapply read_needs; eauto.
    + intros H. destruct (read_back tab states sy Std B N1 N2 G1 G2 H) as (tab' & E & _). congruence.
  - intros Cov Row. destruct (read_back tab states sy Std B N1 N2 G1 G2 Cov) as (tab' & E & Std' & Cells).
    pose proof (read_same_cells tab states sy Std tab' Std' Cells) as SC.
    exists tab', (names1 tab states sy), (names2 tab states sy), (new_state tab states sy), (new_symbol tab states sy).
    assert (F0 : new_state tab states sy 0 = 0) by (eapply new_start; eauto).
    assert (G0 : new_symbol tab states sy 0 = 0) by (eapply new_blank; eauto).
    split; [exact E|]. split; [exact Std'|]. split; [exact F0|]. split; [exact G0|]. split; [|split; [|split; [exact SC|]]].
    + intros i Hi H. pose proof (new_state_row tab states sy Std N1 i Hi H) as X. apply index_of_nth in X. rewrite X. symmetry. now apply nth_error_nth'.
    + intros j Hj H. pose proof (new_symbol_read tab states sy Std B N2 j Hj H) as X. apply index_of_nth in X. rewrite X. symmetry. now apply nth_error_nth'.
    + apply (same_cells_machine _ _ (List.length states) (List.length sy)); auto.
      * destruct Row as (j & D). apply (defined_cell _ _ _ _ _ Std) in D. destruct D as (t & Et & _). now destruct (cell_bounds _ _ _ _ _ _ (proj1 Std) Et).
      * apply basic_in_range, std_basic, Std.
Qed.

(** A machine of another reader, whose names are numbers: the hypotheses about names hold. *)
Theorem C58_numbers n m tab : 0 < m -> std_table n m tab ->
  exists text, morphett_write tab (number_names n) (number_names m) = Some text /\
    (morphett_read text <> None <-> covered (table_of tab)) /\
    (covered (table_of tab) -> has_row (table_of tab) 0 ->
     exists tab' states' symbols' f g, morphett_read text = Some (tab', states', symbols') /\ f 0 = 0 /\ g 0 = 0 /\
       same_machine f g (table_of tab) (table_of tab')).
Proof.
  intros Hm Std. destruct (number_symbol_names m Hm) as (sy & Er & Lm & Sy & _).
  destruct (C58_round_trip tab (number_names n) (number_names m) sy) as (text & Ew & H1 & H2); auto.
  - now rewrite number_names_length, Lm.
  - apply number_state_names.
  - exists text. split; auto. split; auto. intros C R. destruct (H2 C R) as (tab' & st' & sy' & f & g & E & _ & F0 & G0 & _ & _ & _ & S). eauto 10.
Qed.

(** If every state has a transition and the start state has all of them, the machine read back is the
    same table with the same names. *)
Theorem C58_identical n m tab : 0 < n -> 0 < m -> std_table n m tab ->
  (forall i, i < n -> has_row (table_of tab) i) -> (forall j, j < m -> defined_at (table_of tab) 0 j) ->
  exists text states symbols, morphett_write tab (number_names n) (number_names m) = Some text /\
    morphett_read text = Some (tab, states, symbols) /\ List.length states = n /\ List.length symbols = m.
Proof.
  intros Hn Hm Std Rows Row0. destruct (number_symbol_names m Hm) as (sy & Er & Lm & (N2 & G2) & B).
  destruct (number_state_names n) as (N1 & G1). pose proof (number_names_length n) as Ln.
  assert (Std2 : std_table (List.length (number_names n)) (List.length sy) tab) by now rewrite Ln, Lm.
  assert (Rows2 : forall i, i < List.length (number_names n) -> has_row (table_of tab) i) by (rewrite Ln; exact Rows).
  assert (Row02 : forall j, j < List.length sy -> defined_at (table_of tab) 0 j) by (rewrite Lm; exact Row0).
  assert (Npos : 0 < List.length (number_names n)) by lia.
  eexists. exists (number_names n), sy. split; [eapply write_ok; eauto|]. split; [|split; [exact Ln|exact Lm]].
  destruct (read_back tab (number_names n) sy Std2 B N1 N2 G1 G2 (same_covered _ _ _ Std2 Rows2 Row02)) as (tab' & E & Std' & Cells).
  rewrite (same_names1 tab (number_names n) sy Std2 N1 Rows2 Npos), (same_names2 tab (number_names n) sy Std2 B N2 Row02 Npos) in *.
  rewrite E. rewrite (same_table tab (number_names n) sy Std2 B N1 N2 Rows2 Row02 Npos tab' Std' Cells). reflexivity.
Qed.

Definition s (x : string) : str := list_ascii_of_string x.
(** the machine written and read again, with numbers as names *)
Definition rewritten (tab : ttable) (n m : nat) : option (ttable * list str * list str) :=
  match morphett_write tab (number_names n) (number_names m) with Some text => morphett_read text | None => None end.

(** ** Reading files written by people *)

(** A line with nothing but white space, breakpoint marks and a comment changes nothing, wherever it stands. *)
Theorem C58_noise_lines x l y : noise l -> whole_lines x -> morphett_read (x ++ (l ++ [nl]) ++ y) = morphett_read (x ++ y).
Proof.
  intros N W. apply read_quints. rewrite !(quints_app x) by exact W.
  rewrite (quints_app (l ++ [nl])) by (right; eauto). rewrite (quints_noise l N). destruct (quints_of x), (quints_of y); reflexivity.
Qed.
(** A state that begins with "halt", in capitals or not, is the halt state; any other is a state of that name. *)
Theorem C58_halt_any_case st sy w d c1 c2 c3 c4 rest :
  good_name st -> good_name sy -> good_name w -> good_name (c1 :: c2 :: c3 :: c4 :: rest) ->
  morphett_line (join " " [st; sy; w; morphett_dir d; c1 :: c2 :: c3 :: c4 :: rest] ++ [nl]) =
  Some (Some (NQuint st sy w d
    (if (Ascii.eqb c1 "h" || Ascii.eqb c1 "H") && (Ascii.eqb c2 "a" || Ascii.eqb c2 "A") &&
        (Ascii.eqb c3 "l" || Ascii.eqb c3 "L") && (Ascii.eqb c4 "t" || Ascii.eqb c4 "T")
     then None else Some (c1 :: c2 :: c3 :: c4 :: rest))))%bool.
Proof.
  intros G1 G2 G3 G4. unfold nl. rewrite line_names by auto. do 4 f_equal. unfold is_halt_name, halt_name. cbn [map starts_with].
  assert (H : forall x X c, (x, X) = ("h", "H")%char \/ (x, X) = ("a", "A")%char \/ (x, X) = ("l", "L")%char \/ (x, X) = ("t", "T")%char ->
             Ascii.eqb x (lower c) = (Ascii.eqb c x || Ascii.eqb c X)%bool).
  { intros x X c [E|[E|[E|E]]]; injection E as -> ->; destruct c as [[] [] [] [] [] [] [] []]; vm_compute; reflexivity. }
  rewrite (H "h"%char "H"%char), (H "a"%char "A"%char), (H "l"%char "L"%char), (H "t"%char "T"%char) by auto.
  rewrite andb_true_r, !andb_assoc. reflexivity.
Qed.
Example C58_noise_case : noise (s " ! ; 0 _ 1 r 1") /\ whole_lines (s "0 _ _ r HALTED" ++ [nl]) /\
  morphett_read (s "0 _ _ r HALTED" ++ [nl]) <> None.
Proof.
  split; [|split; [right; eauto|]].
  2: { intros E. apply (f_equal (fun o => match o with Some _ => true | None => false end)) in E. vm_compute in E. discriminate. }
  split.
  - intros c H ->. vm_compute in H. intuition discriminate.
  - exists (s " ! "), (s "; 0 _ 1 r 1"). split; [reflexivity|]. split; [|right; eexists; reflexivity].
    intros c H. vm_compute in H. decompose [or] H; subst; try contradiction; auto.
Qed.


(** Machines in tree normal form need not come back: a symbol written that nothing reads, or a state
    entered that has no transition, raise ValueError. *)
Theorem C58_unread_symbol_refuted : std_table 2 2 (tm "1RB---_0LA---") /\ rewritten (tm "1RB---_0LA---") 2 2 = None.
Proof. split; [|vm_compute; reflexivity]. eapply parse_std with (line := s "1RB---_0LA---"). vm_compute. reflexivity. Qed.
Theorem C58_empty_state_refuted : std_table 2 2 (tm "0RB---_------") /\ rewritten (tm "0RB---_------") 2 2 = None.
Proof. split; [|vm_compute; reflexivity]. eapply parse_std with (line := s "0RB---_------"). vm_compute. reflexivity. Qed.

(** A start state without transitions is lost: the machine read back starts in another one, and runs
    forever where the one written stops at once. *)
Theorem C58_start_state_refuted : exists tab', std_table 2 2 (tm "------_0RB0LB") /\
  rewritten (tm "------_0RB0LB") 2 2 = Some (tab', [s "1"], [s "_"; s "1"]) /\
  step (table_of (tm "------_0RB0LB")) initial = None /\ nonhalting (table_of tab') initial.
Proof.
  eexists. split; [eapply parse_std with (line := s "------_0RB0LB"); vm_compute; reflexivity|].
  split; [vm_compute; reflexivity|]. split; [vm_compute; reflexivity|].
  assert (H : forall k z, exists c, steps (table_of (tm "0RA0LA")) k (Cfg 0 z (fun _ => 0)) = Some c).
  { assert (G : forall k c, st c = 0 -> (forall z, tp c z = 0) -> exists c', steps (table_of (tm "0RA0LA")) k c = Some c').
    { induction k as [|k IH]; intros c Hs Ht; [exists c; reflexivity|]. cbn [steps]. unfold step. rewrite Hs, Ht. cbn.
      apply IH; cbn; auto. intros z. unfold put. destruct (Z.eqb z (hd c)); auto. }
    intros k z. apply G; auto. }
  intros k E. destruct (H k 0%Z) as (c & Ec). unfold initial in E.
  match type of E with steps (table_of ?t) _ _ = _ => change (table_of t) with (table_of (tm "0RA0LA")) in E end. congruence.
Qed.

(** Two records in one file become one machine: the second overwrites cells of the first. *)
Theorem C58_two_records_refuted : exists x y tab' states symbols,
  morphett_write (tm "1RB1LB_1LA0RB") (number_names 2) (number_names 2) = Some x /\
  morphett_write (tm "0RB0LB_0LA1RB") (number_names 2) (number_names 2) = Some y /\
  morphett_read x = Some (tm "1RB1LB_1LA0RB", states, symbols) /\
  morphett_read (x ++ y) = Some (tab', states, symbols) /\ tab' = tm "0RB0LB_0LA1RB".
Proof. do 5 eexists. split; [vm_compute; reflexivity|]. split; [vm_compute; reflexivity|]. split; [vm_compute; reflexivity|]. split; vm_compute; reflexivity. Qed.

Ltac evaluate := lazymatch goal with
  | |- match table_of _ _ (S (S (S ?j))) with _ => _ end => idtac
  | |- match ?x with _ => _ end => let v := eval vm_compute in x in change x with v; cbv iota
  end.
(** the case of a machine whose symbols are renumbered: symbol 2 is read before symbol 1 *)
Example C58_case : exists tab' states symbols,
  std_table 2 3 (tm "2RB---1LB_1LA1RB1RZ") /\ covered (table_of (tm "2RB---1LB_1LA1RB1RZ")) /\ has_row (table_of (tm "2RB---1LB_1LA1RB1RZ")) 0 /\
  morphett_write (tm "2RB---1LB_1LA1RB1RZ") (number_names 2) (number_names 3) =
    Some (List.concat (map (fun l => s l ++ ["010"%char]) ["0 _ 2 r 1"; "0 2 1 l 1"; "1 _ 1 l 0"; "1 1 1 r 1"; "1 2 1 r halt"]%string)) /\
  rewritten (tm "2RB---1LB_1LA1RB1RZ") 2 3 = Some (tab', states, symbols) /\
  states = [s "0"; s "1"] /\ symbols = [s "_"; s "2"; s "1"] /\ tab' = tm "1RB2LB---_2LA2RZ2RB".
Proof.
  assert (Std : std_table 2 3 (tm "2RB---1LB_1LA1RB1RZ")) by (eapply parse_std with (line := s "2RB---1LB_1LA1RB1RZ"); vm_compute; reflexivity).
  assert (D : forall i j, match table_of (tm "2RB---1LB_1LA1RB1RZ") i j with Stop _ _ false => False | _ => True end -> defined_at (table_of (tm "2RB---1LB_1LA1RB1RZ")) i j).
  { intros i j H w d E. now rewrite E in H. }
  do 3 eexists. split; [exact Std|]. split.
  - intros i j. destruct i as [|[|i]].
    + destruct j as [|[|[|j]]]; evaluate.
      * split; [right; exists 0|exists 0]; apply D; vm_compute; exact I.
      * exact I.
      * split; [right; exists 1|exists 0]; apply D; vm_compute; exact I.
      * unfold table_of. change (nth_error (tm "2RB---1LB_1LA1RB1RZ") 0) with (Some (List.hd [] (tm "2RB---1LB_1LA1RB1RZ"))). cbv iota.
        replace (nth_error (List.hd [] (tm "2RB---1LB_1LA1RB1RZ")) (S (S (S j)))) with (@None (transition nat sstate)) by (destruct j; reflexivity). exact I.
    + destruct j as [|[|[|j]]]; evaluate.
      * split; [right; exists 1|exists 0]; apply D; vm_compute; exact I.
      * split; [right; exists 1|exists 0]; apply D; vm_compute; exact I.
      * right. exists 1. apply D; vm_compute; exact I.
      * unfold table_of. change (nth_error (tm "2RB---1LB_1LA1RB1RZ") 1) with (Some (List.hd [] (tl (tm "2RB---1LB_1LA1RB1RZ")))). cbv iota.
        replace (nth_error (List.hd [] (tl (tm "2RB---1LB_1LA1RB1RZ"))) (S (S (S j)))) with (@None (transition nat sstate)) by (destruct j; reflexivity). exact I.
    + unfold table_of. replace (nth_error (tm "2RB---1LB_1LA1RB1RZ") (S (S i))) with (@None (list (transition nat sstate))) by (destruct i; reflexivity). exact I.
  - split; [exists 0; apply D; exact I|]. split; [vm_compute; reflexivity|]. split; [vm_compute; reflexivity|].
    split; [reflexivity|]. split; reflexivity.
Qed.

(** What load_record gives is a record, and that stores the machine at once.  It succeeds for all
    machines but those of at most 7 states and 8 symbols that write the last symbol. *)
Theorem C58_record text tab states symbols : morphett_read text = Some (tab, states, symbols) -> states <> [] ->
  let n := List.length states in let m := List.length symbols in
  (morphett_record text = Some (tab, states, symbols) /\ storable n m tab) \/
  (morphett_record text = None /\ n <= 7 /\ m = 8 /\ exists i j t, cell tab i j = Some t /\ t_cond t <> UNDEFINED /\ 7 <= t_sym t).
Proof.
  intros E Hs n m. assert (Hn : 0 < n) by (destruct states; [congruence|cbn; lia]).
  assert (Std : std_table n m tab /\ 0 < m).
  { unfold morphett_read in E. destruct (otraverse _) as [lines|]; [|discriminate]. cbv zeta in E.
    destruct (otraverse (map _ _)) as [qs|] in E; [|discriminate].
    destruct (tm_from_quintuples qs _ _) as [tab'|] eqn:Eq in E; [|discriminate]. cbn [option_map] in E. injection E as -> E1 E2.
    rewrite E1, E2 in Eq. split; [eapply quintuples_std; exact Eq|]. unfold m. rewrite <- E2. clear.
    enough (forall l a, a <> [] -> fold_left add_name l a <> []) as H.
    { specialize (H (map nq_symbol (flat_map (fun o => match o with Some q => [q] | None => [] end) lines)) [blank_name]).
      destruct (fold_left _ _ _); [exfalso; apply H; congruence|cbn; lia]. }
    induction l as [|x l IH]; intros a Ha; cbn [fold_left]; auto. apply IH. unfold add_name. destruct (mem_str x a); auto.
    destruct a; [congruence|discriminate]. }
  destruct Std as (Std & Hm). unfold morphett_record. rewrite E. fold n m.
  destruct (write_tm tab n m) as [p|] eqn:Ew.
  - left. split; auto. apply (write_tm_total n m tab Std Hn Hm). eauto.
  - right. split; auto.
    destruct (Nat.le_gt_cases n 7) as [H7|H7]; [destruct (Nat.eq_dec m 8) as [H8|H8]|].
    2: { exfalso. destruct (proj1 (write_tm_total n m tab Std Hn Hm)) as (p & Ep); [intros _ X; contradiction|congruence]. }
    2: { exfalso. destruct (proj1 (write_tm_total n m tab Std Hn Hm)) as (p & Ep); [intros X; lia|congruence]. }
    split; auto. split; auto.
    set (bad := fun t : transition nat sstate => match t_cond t with UNDEFINED => false | _ => Nat.leb 7 (t_sym t) end).
    destruct (existsb (fun row => existsb bad row) tab) eqn:Eb.
    + apply existsb_exists in Eb. destruct Eb as (row & Hrow & Eb). apply existsb_exists in Eb. destruct Eb as (t & Ht & Eb).
      apply In_nth_error in Hrow. destruct Hrow as (i & Hi). apply In_nth_error in Ht. destruct Ht as (j & Hj). exists i, j, t.
      split; [unfold cell; rewrite Hi; exact Hj|]. unfold bad in Eb. destruct (t_cond t) eqn:Ec; try discriminate; (split; [congruence|now apply Nat.leb_le]).
    + exfalso. destruct (proj1 (write_tm_total n m tab Std Hn Hm)) as (p & Ep); [|congruence].
      intros _ _ i j t Ht. destruct (t_cond t) eqn:Ec; auto; right; (destruct (Nat.lt_ge_cases (t_sym t) 7); auto; exfalso;
        assert (X : existsb (fun row => existsb bad row) tab = true);
        [|congruence]; unfold ttable, trans_row in *; unfold cell in Ht; destruct (nth_error tab i) as [row|] eqn:Ei; [|discriminate Ht];
        apply existsb_exists; exists row; split; [eapply nth_error_In; eauto|]; apply existsb_exists; exists t;
        split; [eapply nth_error_In; eauto|]; unfold bad; rewrite Ec; now apply Nat.leb_le).
Qed.
(** such a machine is written, and its file is refused *)
Theorem C58_symbol_7_refuted : exists tab text, std_table 1 8 tab /\ covered (table_of tab) /\ has_row (table_of tab) 0 /\
  morphett_write tab (number_names 1) (number_names 8) = Some text /\ morphett_read text <> None /\ morphett_record text = None.
Proof.
  destruct (tm_from_quintuples (map (fun j => Quint 0 j (Some 7) R (SRun 0)) (seq 0 8)) 1 8) as [tab|] eqn:E; [|vm_compute in E; discriminate].
  exists tab. pose proof (quintuples_std _ _ _ _ E) as Std.
  assert (Cells : forall j, j < 8 -> defined_at (table_of tab) 0 j).
  { vm_compute in E. injection E as <-. intros j Hj. do 8 (destruct j as [|j]; [intros w d X; vm_compute in X; discriminate X|]). lia. }
  destruct (C58_identical 1 8 tab) as (text & st & sy & Ew & Er & L1 & L2); auto; try lia.
  { intros i Hi. exists 0. replace i with 0 by lia. apply Cells. lia. }
  exists text. split; [exact Std|]. split; [|split; [exists 0; apply Cells; lia|]].
  { destruct (C58_numbers 1 8 tab) as (text2 & Ew2 & H & _); auto; try lia. apply H. rewrite Ew in Ew2. injection Ew2 as <-. congruence. }
  split; [exact Ew|]. split; [congruence|].
  unfold morphett_record. rewrite Er, L1, L2. enough (Eo : write_tm tab 1 8 = None) by now rewrite Eo.
  clear -E. vm_compute in E. injection E as <-. vm_compute. reflexivity.
Qed.

Print Assumptions C58_record.
Print Assumptions C58_symbol_7_refuted.
Print Assumptions C58_round_trip.
Print Assumptions C58_numbers.
Print Assumptions C58_identical.
Print Assumptions C58_unread_symbol_refuted.
Print Assumptions C58_empty_state_refuted.
Print Assumptions C58_start_state_refuted.
Print Assumptions C58_two_records_refuted.
Print Assumptions C58_noise_lines.
Print Assumptions C58_halt_any_case.
