(** * C36 - C41, C51: text, packed tables, stored records, record files, big integers, the
      bbchallenge database *)
Require Import ZArith List Lia Bool Arith Ascii.
From Verif Require Import Spec_TM M_Turing_Machine P_Stream P_Macro P_Quint M_IO P_IO P_Formats P_Files Prop_Macro.
Import ListNotations.
Open Scope nat_scope.

(** Every table a reader builds is [std_table]: the theorems below are about all of them. *)
Theorem C36_every_machine_is_std : forall qs n m tab, tm_from_quintuples qs n m = Some tab -> std_table n m tab.
Proof. exact quintuples_std. Qed.

(** printing and parsing give back the same table *)
Theorem C36_text_round_trip : forall n m tab,
  std_table n m tab -> 0 < n < 25 -> 0 < m < 10 ->
  exists s, ttable_str tab n m = Some s /\ s <> [] /\ parse_tm s = Some (tab, n, m).
Proof.
  intros n m tab Hstd Hn Hm. exists (table_text tab). split; [|split].
  - apply print_std; tauto.
  - eapply table_text_nonempty; [apply Hstd| |]; lia.
  - apply (parse_table_text n m); tauto.
Qed.

(** what an accepted text says is what the machine does; [row_cell], [text_action] speak of characters only *)
Theorem C36_text_meaning : forall rows tab n m,
  rows <> [] -> (forall r c, In r rows -> In c r -> text_char c = true) ->
  parse_tm (join "_" rows) = Some (tab, n, m) ->
  n = length rows /\ m = text_symbols rows /\ std_table n m tab /\
  forall i row, nth_error rows i = Some row ->
    (forall j t, row_cell row j = Some t -> text_action n t (table_of tab i j)) /\
    (forall j, j < m -> row_cell row j = None -> table_of tab i j = Stop 1 R false).
Proof. intros. apply parse_meaning; auto. Qed.

(** and exactly these texts are accepted *)
Theorem C36_text_accepted : forall rows,
  rows <> [] -> (forall r c, In r rows -> In c r -> text_char c = true) ->
  (parse_tm (join "_" rows) <> None <->
   forall i row, nth_error rows i = Some row ->
     length row mod 3 = 0 /\ forall j t, row_cell row j = Some t -> undef_text t \/ good_text (text_symbols rows) t).
Proof. intros. apply parse_accepts; auto. Qed.

(** Text that names no machine is accepted too: a next state that is no letter, the empty text,
    rows of different lengths. *)
Theorem C36_malformed_rejected_refuted :
  parse_tm ["1"; "R"; "?"; "0"; "L"; "!"]%char <> None /\ parse_tm [] <> None /\
  parse_tm ["1"; "R"; "B"; "_"; "1"; "L"; "A"; "0"; "L"; "B"]%char <> None.
Proof. repeat split; vm_compute; discriminate. Qed.

Example C36_example : exists s, ttable_str bb2 2 2 = Some s /\ s = ["1";"R";"B";"1";"L";"B";"_";"1";"L";"A";"1";"R";"Z"]%char /\ parse_tm s = Some (bb2, 2, 2).
Proof. eexists. split; [vm_compute; reflexivity|]. split; reflexivity. Qed.
Example C36_std_example : std_table 2 2 bb2.
Proof.
  apply (quintuples_std [Quint 0 0 (Some 1) R (SRun 1); Quint 0 1 (Some 1) L (SRun 1); Quint 1 0 (Some 1) L (SRun 0); Quint 1 1 (Some 1) R SHalt]).
  reflexivity.
Qed.

(** ** C51 *)

(** a file of machines is read back whole and in order *)
Theorem C51_text_file : forall es parts fuel,
  Forall entry_ok es -> otraverse (map write_entry es) = Some parts -> length es < fuel ->
  read_texts fuel (concat parts) = Some (map fst es).
Proof. intros. eapply read_entries; eauto. Qed.
Theorem C51_text_file_written : forall es, Forall entry_ok es -> exists parts, otraverse (map write_entry es) = Some parts.
Proof.
  intros es H. apply otraverse_all. intros x Hx. apply in_map_iff in Hx. destruct Hx as (e & <- & He).
  rewrite Forall_forall in H. destruct (write_entry_ok e (H e He)) as (s & ->). discriminate.
Qed.

(** A machine with 25 states or 10 symbols is written as an empty line, at which the reader
    stops: the records after it are lost. *)
Theorem C51_large_machine_refuted :
  exists big parts, std_table 2 10 big /\
    otraverse (map write_entry [(bb2, 2, 2, None); (big, 2, 10, None); (bb2, 2, 2, None)]) = Some parts /\
    read_texts 10 (concat parts) = Some [(bb2, 2, 2)].
Proof.
  destruct (tm_from_quintuples [Quint 0 0 (Some 9) R (SRun 1)] 2 10) as [big|] eqn:E; [|vm_compute in E; discriminate].
  exists big. eexists. split; [eapply quintuples_std; eauto|]. vm_compute in E. injection E as <-. split; vm_compute; reflexivity.
Qed.
(** A machine with at most 7 states and 8 symbols that writes the last symbol is printed, but the line
    cannot be read: the record made of it cannot hold the machine.  All others can. *)
Theorem C51_symbol_7 : forall tab n m halt s rest, std_table n m tab -> 0 < n < 25 -> 0 < m < 10 ->
  match halt with Some (a, b) => no_newline a /\ no_newline b | None => True end ->
  write_text tab n m halt = Some s ->
  (read_text (s ++ rest) = Some (Some (tab, n, m), rest) <-> storable n m tab).
Proof.
  intros tab n m halt s rest Hstd Hn Hm Hh Hw. split.
  - intros E. apply (write_tm_total n m tab Hstd); try lia. apply read_text_stores in E. exact E.
  - intros Hst. apply (read_entry (tab, n, m, halt)); [|exact Hw]. repeat split; auto; try apply Hstd; lia.
Qed.
Theorem C51_symbol_7_refuted : exists tab s, std_table 2 8 tab /\ write_text tab 2 8 None = Some s /\ parse_tm (first_word s) = Some (tab, 2, 8) /\
  forall rest, read_text (s ++ rest) = None.
Proof.
  destruct (tm_from_quintuples [Quint 0 0 (Some 7) R (SRun 1)] 2 8) as [tab|] eqn:E; [|vm_compute in E; discriminate].
  exists tab. eexists. split; [eapply quintuples_std; eauto|]. vm_compute in E. injection E as <-.
  split; [vm_compute; reflexivity|]. split; [vm_compute; reflexivity|]. intros rest. vm_compute. reflexivity.
Qed.
Theorem C51_large_machine_is_blank : forall tab n m halt, 25 <= n \/ 10 <= m ->
  exists s, write_text tab n m halt = Some s /\ (halt = None -> s = ["010"%char]).
Proof.
  intros tab n m halt H. unfold write_text, ttable_str.
  replace (Nat.ltb n 25 && Nat.ltb m 10)%bool with false.
  2:{ symmetry. apply andb_false_iff. destruct H as [H|H]; [left|right]; apply Nat.ltb_ge; auto. }
  eexists. split; [reflexivity|]. intros ->. reflexivity.
Qed.

Example C51_example : exists parts,
  otraverse (map write_entry [(bb2, 2, 2, Some (["6"], ["4"])%char); (bb2, 2, 2, None)]) = Some parts /\
  read_texts 3 (concat parts) = Some [(bb2, 2, 2); (bb2, 2, 2)] /\ entry_ok (bb2, 2, 2, Some (["6"], ["4"])%char).
Proof.
  eexists. split; [vm_compute; reflexivity|]. split; [vm_compute; reflexivity|]. split; [exact C36_std_example|].
  split; [lia|]. split; [lia|]. split; [intros _ H; discriminate H|]. split; intros c [<- |[]]; reflexivity.
Qed.

(** ** C37 *)
Theorem C37_packed_round_trip : forall n m tab,
  std_table n m tab -> 0 < n <= 7 -> 0 < m <= 7 ->
  exists bytes, pack_tm tab n m = Some bytes /\ length bytes = n * m /\ Forall (fun b => (0 <= b < 256)%Z) bytes /\
    unpack_tm bytes = Some (tab, n, m).
Proof.
  intros n m tab Hstd Hn Hm. apply pack_roundtrip; try tauto; try lia. intros i j t Ht.
  pose proof (proj2 Hstd _ _ _ Ht) as Hs. unfold packable. destruct Hs; simpl; [auto|right; split; [lia|auto]|right; lia].
Qed.
Example C37_example : exists bytes, pack_tm bb2 2 2 = Some bytes /\ bytes = [210; 18; 138; 66]%Z /\ unpack_tm bytes = Some (bb2, 2, 2).
Proof. eexists. split; [vm_compute; reflexivity|]. split; reflexivity. Qed.

(** ** C38 *)

(** records of at most 7 states and 8 symbols, if the eighth symbol is never written *)
Theorem C38_stored_record_partial : forall n m tab,
  std_table n m tab -> 0 < n <= 7 -> 0 < m <= 8 ->
  (forall i j t, cell tab i j = Some t -> t_cond t = UNDEFINED \/ t_sym t < 7) ->
  exists p, write_tm tab n m = Some p /\ read_tm p = Some (tab, n, m).
Proof.
  intros n m tab Hstd Hn Hm H7. destruct (pack_roundtrip n m tab) as (bytes & E & _ & _ & U); auto; try lia.
  { intros i j t Ht. pose proof (proj2 Hstd _ _ _ Ht) as Hs. destruct (H7 _ _ _ Ht) as [Hu|Hw]; [left; auto|].
    right. split; auto. destruct Hs; simpl; auto. lia. }
  exists (Packed bytes). unfold write_tm. replace (Nat.leb n 7) with true by (symmetry; apply Nat.leb_le; lia).
  replace (Nat.leb m 8) with true by (symmetry; apply Nat.leb_le; lia). cbn [andb]. rewrite E. auto.
Qed.
(** with 8 symbols, a machine that writes the last one cannot be stored *)
Theorem C38_symbol_7_fails : forall n tab i j t,
  std_table n 8 tab -> n <= 7 -> cell tab i j = Some t -> t_cond t <> UNDEFINED -> t_sym t = 7 -> write_tm tab n 8 = None.
Proof.
  intros n tab i j t _ Hn Ht Hu H7. unfold write_tm. replace (Nat.leb n 7) with true by (symmetry; apply Nat.leb_le; lia). cbn [andb Nat.leb].
  rewrite (pack_tm_fails n 8 tab i j t Ht Hu); auto. left. lia.
Qed.
Theorem C38_symbol_7_refuted : exists tab, std_table 2 8 tab /\ write_tm tab 2 8 = None.
Proof.
  destruct (tm_from_quintuples [Quint 0 0 (Some 7) R (SRun 1)] 2 8) as [tab|] eqn:E; [|vm_compute in E; discriminate].
  exists tab. split; [eapply quintuples_std; eauto|]. vm_compute in E. injection E as <-. reflexivity.
Qed.
(** the list form: reading gives every cell the contents of cell A0 *)
Theorem C38_list_form_exact : forall n m tab t00,
  std_table n m tab -> 0 < n -> 0 < m -> 7 < n \/ 8 < m -> cell tab 0 0 = Some t00 ->
  exists p tab', write_tm tab n m = Some p /\ read_tm p = Some (tab', n, m) /\
    forall i j, i < n -> j < m -> cell tab' i j = Some (relocate i j t00).
Proof.
  intros n m tab t00 Hstd Hn Hm Hbig H0. destruct (tm_to_list_ok n m tab (proj1 Hstd)) as (l & E & _).
  destruct (list_reads_first n m tab _ t00 Hstd Hn Hm E H0) as (tab' & E' & _ & Hc).
  exists (Listed (TMList n m (concat l))), tab'. unfold write_tm.
  replace (Nat.leb n 7 && Nat.leb m 8)%bool with false.
  2:{ symmetry. apply andb_false_iff. destruct Hbig; [left|right]; apply Nat.leb_gt; lia. }
  rewrite E. auto.
Qed.
Theorem C38_list_form_refuted : exists tab p tab',
  std_table 8 2 tab /\ write_tm tab 8 2 = Some p /\ read_tm p = Some (tab', 8, 2) /\ table_of tab' 0 1 <> table_of tab 0 1.
Proof.
  destruct (tm_from_quintuples [Quint 0 0 (Some 1) R (SRun 1); Quint 0 1 (Some 1) L (SRun 7)] 8 2) as [tab|] eqn:E; [|vm_compute in E; discriminate].
  exists tab. do 2 eexists. split; [eapply quintuples_std; eauto|]. vm_compute in E. injection E as <-.
  split; [vm_compute; reflexivity|]. split; [vm_compute; reflexivity|]. vm_compute. discriminate.
Qed.
(** the stored list itself loses nothing *)
Theorem C38_list_keeps_table : forall n m tab tab',
  std_table n m tab -> std_table n m tab' -> tm_to_list tab n m = tm_to_list tab' n m -> tab = tab'.
Proof. exact tm_to_list_inj. Qed.
Example C38_example : exists p, write_tm bb2 2 2 = Some p /\ read_tm p = Some (bb2, 2, 2).
Proof. eexists. split; vm_compute; reflexivity. Qed.

(** ** C39; records are the byte strings that protobuf makes *)
Theorem C39_read_all : forall recs data, write_records recs = Some data -> read_file data = (recs, true).
Proof. exact read_file_full. Qed.
(** cut after any number of bytes: a prefix, then an error, or the end if the cut is between records *)
Theorem C39_cut : forall recs data k, write_records recs = Some data -> k <= length data ->
  exists j b, j <= length recs /\ read_file (firstn k data) = (firstn j recs, b) /\
    (b = true <-> write_records (firstn j recs) = Some (firstn k data)).
Proof. exact read_file_cut. Qed.
Theorem C39_load : forall recs data n, write_records recs = Some data -> load_record data n = nth_error recs n.
Proof. exact load_full. Qed.
Theorem C39_load_cut : forall recs data k n r,
  write_records recs = Some data -> k <= length data -> load_record (firstn k data) n = Some r -> nth_error recs n = Some r.
Proof. exact load_cut. Qed.
(** every record shorter than 4 GiB can be written *)
Theorem C39_write_total : forall recs, Forall (fun r => (Z.of_nat (length r) < 2 ^ 32)%Z) recs -> write_records recs <> None.
Proof.
  intros recs H. unfold write_records. destruct (otraverse_all (map write_record recs)) as (ws & ->); [|discriminate].
  intros x Hx. apply in_map_iff in Hx. destruct Hx as (r & <- & Hr). rewrite Forall_forall in H. specialize (H r Hr).
  unfold write_record, pack_len. change (2 ^ 32)%Z with 4294967296%Z in H.
  replace ((0 <=? Z.of_nat (length r)) && (Z.of_nat (length r) <? 4294967296))%Z%bool with true; [discriminate|].
  symmetry. apply andb_true_iff. split; [apply Z.leb_le|apply Z.ltb_lt]; lia.
Qed.
Example C39_example : exists data, write_records [[7; 8; 9]; []; [255]]%Z = Some data /\ read_file data = ([[7; 8; 9]; []; [255]]%Z, true) /\
  read_file (firstn 12 data) = ([[7; 8; 9]; []]%Z, false) /\ load_record data 2 = Some [255%Z] /\ load_record (firstn 5 data) 0 = None.
Proof. eexists. split; [vm_compute; reflexivity|]. repeat split; vm_compute; reflexivity. Qed.

(** ** C40 *)
Theorem C40_big_int_round_trip : forall v, exists f, set_big_int v = Some f /\ get_big_int f = Some v.
Proof.
  intros v. unfold set_big_int, big_int_max. destruct (Z.leb_spec (Z.abs v) (2 ^ 63 - 1)) as [H|H].
  - exists (FInt v). split; auto. replace ((- 2 ^ 63 <=? v)%Z && (v <? 2 ^ 63)%Z)%bool with true; auto.
    symmetry. apply andb_true_iff. split; [apply Z.leb_le|apply Z.ltb_lt]; lia.
  - exists (FHex (hex v)). split; auto. apply int16_hex.
Qed.
Example C40_example : set_big_int (- 2 ^ 63) = Some (FHex ["-";"0";"x";"8";"0";"0";"0";"0";"0";"0";"0";"0";"0";"0";"0";"0";"0";"0";"0"]%char)
  /\ option_map get_big_int (set_big_int (10 ^ 30)) = Some (Some (10 ^ 30)%Z).
Proof. split; vm_compute; reflexivity. Qed.

(** ** C41; entry [n] begins at byte [30 + 30 * n], cell (i, j) at [3 * (2 * i + j)] in it *)
Definition db_sym (data : list Z) (n i j : nat) : Z := byte_at data (30 + n * 30 + 3 * (2 * i + j)).
Definition db_dir (data : list Z) (n i j : nat) : Z := byte_at data (30 + n * 30 + (3 * (2 * i + j) + 1)).
Definition db_state (data : list Z) (n i j : nat) : Z := byte_at data (30 + n * 30 + (3 * (2 * i + j) + 2)).

Theorem C41_entry : forall data q n,
  (forall k, k < length data -> (0 <= byte_at data k < 256)%Z) -> 60 + n * 30 <= length data ->
  let r := fst (bbc_get (File data q) n) in
  ((exists tab, r = Got tab) <-> forall i j, i < 5 -> j < 2 -> bbc_cell_ok (db_sym data n i j) (db_dir data n i j) (db_state data n i j)) /\
  (forall tab, r = Got tab -> wf_ttable 5 2 tab /\ forall i j, i < 5 -> j < 2 ->
     table_of tab i j = bbc_action (db_sym data n i j) (db_dir data n i j) (db_state data n i j)) /\ r <> Eof.
Proof.
  intros data q n Hb Hlen r. set (b := firstn 30 (skipn (30 + n * 30) data)).
  assert (Hbl : length b = 30) by (unfold b; rewrite firstn_length, skipn_length; lia).
  assert (Hbb : forall k, k < 30 -> (0 <= byte_at b k < 256)%Z).
  { intros k Hk. unfold b. rewrite byte_at_app by auto. apply Hb. lia. }
  assert (Hr : r = match bbc_unpack_tm b with Some t => Got t | None => Broken end).
  { unfold r, bbc_get. rewrite zseek_pos by lia. unfold bbc_read, fread. cbn [f_pos f_data]. fold b.
    assert (Hne : b <> []) by (intros E; rewrite E in Hbl; discriminate).
    destruct b as [|b0 b']; [congruence|]. rewrite Hbl. cbn [Nat.eqb]. destruct (bbc_unpack_tm (b0 :: b')); reflexivity. }
  assert (Hcell : forall i j, i < 5 -> j < 2 -> bs b i j = db_sym data n i j /\ bd b i j = db_dir data n i j /\ bq b i j = db_state data n i j).
  { intros i j Hi Hj. unfold bs, bd, bq, db_sym, db_dir, db_state, b. rewrite !byte_at_app by lia. auto. }
  rewrite Hr. split; [|split].
  - split.
    + intros (tab & E). assert (Hn : bbc_unpack_tm b <> None) by (destruct (bbc_unpack_tm b); congruence).
      intros i j Hi Hj. destruct (Hcell i j Hi Hj) as (<- & <- & <-). now apply (proj1 (bbc_accepts b Hbl Hbb)).
    + intros H. assert (Hn : bbc_unpack_tm b <> None).
      { apply (bbc_accepts b Hbl Hbb). intros i j Hi Hj. destruct (Hcell i j Hi Hj) as (-> & -> & ->). auto. }
      destruct (bbc_unpack_tm b) as [t|]; [eauto|congruence].
  - intros tab E. destruct (bbc_unpack_tm b) as [t|] eqn:Eb; [|discriminate]. injection E as <-. split.
    + unfold bbc_unpack_tm in Eb. destruct (otraverse _) as [qs|]; [|discriminate]. apply (quintuples_wf qs); auto; lia.
    + intros i j Hi Hj. destruct (Hcell i j Hi Hj) as (<- & <- & <-). eapply bbc_table; eauto.
  - destruct (bbc_unpack_tm b); discriminate.
Qed.
(** loading by skipping is direct access; behind the end there is nothing, an incomplete entry is an error *)
Theorem C41_load : forall data q n, bbc_load data n = fst (bbc_get (File data q) n).
Proof. intros. apply bbc_load_get. Qed.
Theorem C41_end : forall data q n, length data < 60 + n * 30 ->
  fst (bbc_get (File data q) n) = if Nat.leb (length data) (30 + n * 30) then Eof else Broken.
Proof.
  intros data q n H. unfold bbc_get, zseek. cbn [f_data]. unfold bbc_read.
  rewrite fread_short by (rewrite skipn_length; lia).
  destruct (skipn (Nat.min (30 + n * 30) (length data)) data) as [|b l] eqn:E; apply (f_equal (@length _)) in E; rewrite skipn_length in E.
  - cbn [fst]. destruct (Nat.leb_spec (length data) (30 + n * 30)); auto. cbn [length] in E. lia.
  - cbn [length] in *. replace (Nat.eqb (S (length l)) 30) with false by (symmetry; apply Nat.eqb_neq; lia). cbn [fst].
    destruct (Nat.leb_spec (length data) (30 + n * 30)); auto. lia.
Qed.
(** skip_record documents that it returns False if no records are left; it always returns False
    on a file that was just opened, and always after it *)
Theorem C41_skip_result_refuted : exists data, fst (bbc_get (bbc_open data) 0) <> Eof /\ fst (bbc_get (bbc_open data) 1) <> Eof /\
  fst (bbc_skip (bbc_open data)) = false.
Proof. exists (repeat 0%Z 90). vm_compute. repeat split; discriminate. Qed.
Theorem C41_skip_never_true : forall data n, 30 < length data -> 
  fst (bbc_skip (Nat.iter n (fun f => snd (bbc_skip f)) (bbc_open data))) = false.
Proof.
  intros data n H. rewrite bbc_iter. unfold bbc_skip, zseek. cbn [f_data f_pos fst]. apply Nat.eqb_neq. lia.
Qed.
(** entry 1 of a database: the five state champion with its halting cell *)
Example C41_example :
  let entry := [1;0;2; 1;1;3; 1;0;3; 1;0;2; 1;0;4; 0;1;5; 1;1;1; 1;1;4; 1;0;0; 0;1;1]%Z in
  exists tab, bbc_load (repeat 0%Z 60 ++ entry) 1 = Got tab /\
    table_of tab 0 0 = Go 1 R 1 /\ table_of tab 4 0 = Stop 1 R true /\ table_of tab 4 1 = Go 0 L 0.
Proof. eexists. split; [vm_compute; reflexivity|]. repeat split. Qed.

Print Assumptions C36_text_round_trip.
Print Assumptions C36_text_meaning.
Print Assumptions C36_text_accepted.
Print Assumptions C51_text_file.
Print Assumptions C51_symbol_7.
Print Assumptions C37_packed_round_trip.
Print Assumptions C38_stored_record_partial.
Print Assumptions C38_list_form_exact.
Print Assumptions C39_cut.
Print Assumptions C39_load_cut.
Print Assumptions C40_big_int_round_trip.
Print Assumptions C41_entry.
