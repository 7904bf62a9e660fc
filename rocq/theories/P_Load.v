(** * Proofs about the loading and finding of machines *)
Require Import ZArith List Lia Bool Arith Ascii String.
Require DecimalString DecimalNat.
From Verif Require Import Spec_TM M_Turing_Machine P_Macro P_Quint M_IO P_IO P_Formats P_Files M_Morphett P_Morphett M_Load.
Import ListNotations.
Open Scope nat_scope.

(** ** numbers *)
Lemma digits_uint u : forall acc, digits_val (Z.of_nat acc) true (list_ascii_of_string (DecimalString.NilEmpty.string_of_uint u)) = Some (Z.of_nat (Nat.of_uint_acc u acc)).
Proof.
  induction u as [|u IH|u IH|u IH|u IH|u IH|u IH|u IH|u IH|u IH|u IH]; intros acc; [reflexivity|..];
    cbn [DecimalString.NilEmpty.string_of_uint list_ascii_of_string digits_val Nat.of_uint_acc];
    (match goal with |- context [Ascii.eqb ?a "_"] => change (Ascii.eqb a "_") with false end); cbv iota;
    (match goal with |- context [find_digit ?a] => let v := eval vm_compute in (find_digit a) in change (find_digit a) with v end); cbv iota;
    rewrite <- IH; f_equal; change (Nat.of_num_uint _) with 10;
    rewrite ?Nat.tail_mul_spec; lia.
Qed.
Lemma number_int k : py_int (number_name k) = Some (Z.of_nat k).
Proof.
  destruct (number_digits k) as (Ne & D). unfold py_int. rewrite strip_id.
  2: { intros c Hc. destruct (D c Hc) as (j & Hj & ->). do 10 (destruct j as [|j]; [reflexivity|]). lia. }
  assert (E : DecimalString.NilZero.string_of_uint (Nat.to_uint k) = DecimalString.NilEmpty.string_of_uint (Nat.to_uint k)).
  { pose proof (to_uint_nonnil k). destruct (Nat.to_uint k); [congruence|reflexivity..]. }
  destruct (number_name k) as [|c s] eqn:En; [congruence|].
  assert (Hc : is_digit c) by (apply D; now left).
  assert (X : Ascii.eqb c "-" = false /\ Ascii.eqb c "+" = false /\ Ascii.eqb c "_" = false).
  { destruct Hc as (j & Hj & ->). do 10 (destruct j as [|j]; [auto|]). lia. }
  destruct X as (-> & -> & Xu).
  pose proof (digits_uint (Nat.to_uint k) 0) as H. rewrite <- E in H. fold (number_name k) in H. rewrite En in H.
  change (Nat.of_uint_acc (Nat.to_uint k) 0) with (Nat.of_uint (Nat.to_uint k)) in H. rewrite DecimalNat.Unsigned.of_to in H.
  cbn [digits_val] in H |- *. rewrite Xu in H |- *. exact H.
Qed.
Lemma number_no_colon k : existsb (Ascii.eqb ":") (number_name k) = false.
Proof.
  destruct (existsb _ _) eqn:E; auto. apply existsb_exists in E. destruct E as (c & Hc & E). apply Ascii.eqb_eq in E. subst c.
  destruct (proj2 (number_digits k) _ Hc) as (j & Hj & X). do 10 (destruct j as [|j]; [discriminate X|]). lia.
Qed.

(** ** names *)

(** the pieces of which the regular expression is made *)
Inductive piece : str -> Prop :=
  | piece_bar : piece ["_"%char]
  | piece_undef : piece ["-"; "-"; "-"]%char
  | piece_trans k d q : k < 10 -> q < 26 -> piece [digit k; dir_char d; upper q].

Lemma digit_not_bar k : k < 10 -> Ascii.eqb (digit k) "_" = false.
Proof. intros H. do 10 (destruct k as [|k]; [reflexivity|]). lia. Qed.
Lemma piece_app p s : piece p -> pieces (p ++ s) = pieces s.
Proof.
  intros [| |k d q Hk Hq]; [reflexivity|reflexivity|].
  cbn [app pieces]. rewrite digit_not_bar by auto. replace (is_some (find_digit (digit k))) with true.
  2: { symmetry. destruct (find_digit (digit k)) eqn:E; auto. assert (X : find_digit (digit k) = Some k) by (apply find_digit_spec; auto). congruence. }
  replace (is_some (find_dir (dir_char d))) with true by (destruct d; reflexivity).
  replace (is_some (find_upper (upper q))) with true.
  2: { symmetry. destruct (find_upper (upper q)) eqn:E; auto. assert (X : find_upper (upper q) = Some q) by (apply find_upper_spec; auto). congruence. }
  rewrite orb_true_r. reflexivity.
Qed.
Lemma pieces_spec s : pieces s = true <-> exists l, Forall piece l /\ s = List.concat l.
Proof.
  split.
  - enough (H : forall k s, List.length s <= k -> pieces s = true -> exists l, Forall piece l /\ s = List.concat l) by eauto.
    clear s. induction k as [|k IH]; intros s Hk H.
    { destruct s; [|cbn in Hk; lia]. exists []. auto. }
    destruct s as [|a s]; [exists []; auto|]. cbn [pieces] in H. cbn [List.length] in Hk. destruct (Ascii.eqb a "_") eqn:Ea.
    + apply Ascii.eqb_eq in Ea. subst a. destruct (IH s) as (l & Hl & ->); [lia|auto|]. exists (["_"%char] :: l). split; [constructor; auto; constructor|reflexivity].
    + destruct s as [|b [|c s]]; try discriminate. cbn [List.length] in Hk. apply andb_true_iff in H. destruct H as (H1 & H2).
      destruct (IH s) as (l & Hl & ->); [lia|auto|]. exists ([a; b; c] :: l). split; [|reflexivity]. constructor; auto.
      apply orb_true_iff in H1. destruct H1 as [H1|H1]; repeat (apply andb_true_iff in H1; destruct H1 as (H1 & ?)).
      * repeat match goal with X : Ascii.eqb _ _ = true |- _ => apply Ascii.eqb_eq in X; subst end. constructor.
      * destruct (find_digit a) as [i|] eqn:E1; [|discriminate]. destruct (find_dir b) as [d|] eqn:E2; [|discriminate]. destruct (find_upper c) as [q|] eqn:E3; [|discriminate].
        apply find_digit_spec in E1. apply find_dir_spec in E2. apply find_upper_spec in E3. destruct E1 as (? & ->), E3 as (? & ->). subst b. constructor; auto.
  - intros (l & Hl & ->). induction Hl as [|p l Hp Hl IH]; [reflexivity|]. cbn [List.concat]. now rewrite piece_app.
Qed.
Lemma piece_nonempty p : piece p -> p <> [].
Proof. intros []; discriminate. Qed.
Lemma literal_spec s : is_literal s = true <-> exists l, l <> [] /\ Forall piece l /\ s = List.concat l.
Proof.
  unfold is_literal. destruct s as [|a s].
  - split; [discriminate|]. intros (l & Hl & F & E). destruct F as [|p l Hp F]; [congruence|]. cbn in E. symmetry in E. apply app_eq_nil in E.
    destruct E as (E & _). now apply piece_nonempty in Hp.
  - rewrite pieces_spec. split; intros (l & H); exists l; [|tauto]. destruct H as (F & E). split; auto. intros ->. discriminate.
Qed.
(** the characters of a literal *)
Lemma literal_chars s c : is_literal s = true -> In c s -> c = "_"%char \/ c = "-"%char \/ is_some (find_digit c) = true \/ is_some (find_upper c) = true.
Proof.
  intros H Hc. apply literal_spec in H. destruct H as (l & _ & F & ->). apply in_concat in Hc. destruct Hc as (p & Hp & Hc).
  rewrite Forall_forall in F. destruct (F p Hp) as [| |k d q Hk Hq]; cbn [In] in Hc.
  - intuition congruence.
  - intuition congruence.
  - destruct Hc as [<-|[<-|[<-|[]]]]; right; right.
    + left. replace (find_digit (digit k)) with (Some k) by (symmetry; apply find_digit_spec; auto). reflexivity.
    + right. destruct d; reflexivity.
    + right. replace (find_upper (upper q)) with (Some q) by (symmetry; apply find_upper_spec; auto). reflexivity.
Qed.
Lemma colon_not_literal s : existsb (Ascii.eqb ":") s = true -> is_literal s = false.
Proof.
  intros H. destruct (is_literal s) eqn:E; auto. apply existsb_exists in H. destruct H as (c & Hc & X). apply Ascii.eqb_eq in X. subst c.
  destruct (literal_chars _ _ E Hc) as [X|[X|[X|X]]]; discriminate.
Qed.

Lemma table_text_literal n m tab : std_table n m tab -> 0 < n < 25 -> 0 < m < 10 -> is_literal (table_text tab) = true.
Proof.
  intros Std Hn Hm. assert (Ne : table_text tab <> []) by (eapply table_text_nonempty; [apply Std|lia|lia]).
  unfold is_literal. destruct (table_text tab) as [|c s] eqn:E; [congruence|]. rewrite <- E. clear c s E Ne.
  assert (Row : forall row, In row tab -> exists l, Forall piece l /\ List.concat (map (fun t => flat (cell_text t)) row) = List.concat l).
  { intros row Hrow. exists (map (fun t => flat (cell_text t)) row). split; auto. apply Forall_forall. intros x Hx. apply in_map_iff in Hx.
    destruct Hx as (t & <- & Ht). destruct (In_row_cell n m tab row t (proj1 Std) Hrow Ht) as (i & j & Hc).
    pose proof (proj2 Std _ _ _ Hc) as Hs. destruct Hs; cbn.
    - constructor.
    - change "Z"%char with (upper 25). constructor; lia.
    - constructor; lia. }
  unfold table_text. clear Std. apply pieces_spec. induction tab as [|row tab IH]; [exists []; auto|].
  destruct (Row row) as (l1 & F1 & E1); [now left|]. cbn [map join].
  destruct IH as (l2 & F2 & E2); [intros; apply Row; now right|].
  destruct tab as [|row2 tab].
  - exists l1. cbn [map]. auto.
  - exists (l1 ++ ["_"%char] :: l2). split; [apply Forall_app; split; auto; constructor; auto; constructor|].
    rewrite E1, concat_app. cbn [List.concat app]. rewrite <- E2. reflexivity.
Qed.

Lemma split_first sep a b : existsb (Ascii.eqb sep) a = false -> split_on sep (a ++ sep :: b) = a :: split_on sep b.
Proof.
  induction a as [|c a IH]; cbn [existsb app split_on]; intros H.
  - now rewrite Ascii.eqb_refl.
  - apply orb_false_iff in H. destruct H as (H1 & H2). rewrite Ascii.eqb_sym, H1. now rewrite IH.
Qed.
Lemma split_none sep a : existsb (Ascii.eqb sep) a = false -> split_on sep a = [a].
Proof.
  induction a as [|c a IH]; cbn [existsb split_on]; intros H; [reflexivity|].
  apply orb_false_iff in H. destruct H as (H1 & H2). rewrite Ascii.eqb_sym, H1. now rewrite IH.
Qed.
Lemma split_first_word sep b : exists w l, split_on sep b = w :: l.
Proof. destruct b as [|c b]; cbn; [eauto|]. destruct (Ascii.eqb c sep); eauto. destruct (split_on sep b); eauto. Qed.

Lemma str_eqb_spec x : forall y, str_eqb x y = true <-> x = y.
Proof.
  induction x as [|a x IH]; intros [|b y]; cbn; try (split; intros; congruence).
  rewrite andb_true_iff, IH, Ascii.eqb_eq. split; [intros (-> & ->); auto|intros E; injection E; auto].
Qed.
Lemma bytes_eqb_spec x : forall y, bytes_eqb x y = true <-> x = y.
Proof.
  induction x as [|a x IH]; intros [|b y]; cbn; try (split; intros; congruence).
  rewrite andb_true_iff, IH, Z.eqb_eq. split; [intros (-> & ->); auto|intros E; injection E; auto].
Qed.

(** ** the k-th record *)
Lemma text_nth fuel : forall s l ok i r, text_records fuel s = (l, ok) -> nth_error l i = Some r -> load_text s (Z.of_nat i) = snd r.
Proof.
  induction fuel as [|fuel IH]; intros s l ok i r E Hi; cbn [text_records] in E.
  { injection E as <- _. destruct i; discriminate. }
  destruct (read_text s) as [[[[[tab n] m]|] rest]|] eqn:Er; [|injection E as <- _; destruct i; discriminate..].
  destruct (write_tm tab n m) as [p|]; [|injection E as <- _; destruct i; discriminate].
  destruct (text_records fuel rest) as [l' b] eqn:E'. injection E as <- _.
  destruct i as [|i]; cbn [nth_error] in Hi.
  - injection Hi as <-. unfold load_text. cbn. now rewrite Er.
  - specialize (IH rest l' b i r E' Hi). unfold load_text in *. rewrite Nat2Z.id in *. cbn [skip_lines].
    replace (snd (readline s)) with rest; auto. unfold read_text in Er. destruct (readline s) as [line rest']. cbn.
    destruct (strip line) as [|c0 ln]; [discriminate|]. destruct (parse_tm _) as [[[? ?] ?]|]; [|discriminate].
    destruct (write_tm _ _ _); [|discriminate]. congruence.
Qed.

Lemma skip_as_read f r f' : read_record f = (Got r, f') -> skip_record f = (Got tt, f').
Proof.
  unfold read_record, skip_record. destruct (read_message_len f) as [[| |k] g]; try discriminate.
  unfold fread, fseek. destruct (Nat.eqb (List.length (firstn k (skipn (f_pos g) (f_data g)))) k) eqn:E; [|discriminate].
  intros H. injection H as _ <-. apply Nat.eqb_eq in E. now rewrite E.
Qed.
Lemma read_all_nth fuel : forall f l ok i r, read_all fuel f = (l, ok) -> nth_error l i = Some r ->
  match skip_records i f with Some f => match read_record f with (Got r, _) => Some r | _ => None end | None => None end = Some r.
Proof.
  induction fuel as [|fuel IH]; intros f l ok i r E Hi; cbn [read_all] in E.
  { injection E as <- _. destruct i; discriminate. }
  destruct (read_record f) as [[| |r0] g] eqn:Er; [injection E as <- _; destruct i; discriminate..|].
  destruct (read_all fuel g) as [l' b] eqn:E'. injection E as <- _. destruct i as [|i]; cbn [nth_error] in Hi.
  - injection Hi as <-. cbn [skip_records]. now rewrite Er.
  - cbn [skip_records]. rewrite (skip_as_read _ _ _ Er). eapply IH; eauto.
Qed.

Section Facts.
  Variable files : str -> option (list Z).
  Variable gunzip : list Z -> option (list Z).
  Variable decode : list Z -> option proto_tm.
  Notation load_tm := (load_tm files gunzip decode).
  Notation get_tm := (get_tm files gunzip decode).
  Notation records := (records files gunzip decode).
  Notation load_proto := (load_proto decode).

  Lemma decode_all_nth l : forall ok l' b i r, decode_all decode l ok = (l', b) -> nth_error l' i = Some r ->
    exists x, nth_error l i = Some x /\ decode x = Some (fst r) /\ snd r = read_tm (fst r).
  Proof.
    induction l as [|x l IH]; intros ok l' b i r E Hi; cbn [decode_all] in E.
    { injection E as <- _. destruct i; discriminate. }
    destruct (decode x) as [p|] eqn:Ex; [|injection E as <- _; destruct i; discriminate].
    destruct (decode_all decode l ok) as [l'' b'] eqn:E'. injection E as <- _. destruct i as [|i]; cbn [nth_error] in *.
    - injection Hi as <-. eauto.
    - eapply IH; eauto.
  Qed.
  Lemma proto_nth data l ok i r : proto_records decode data = (l, ok) -> nth_error l i = Some r -> load_proto data (Z.of_nat i) = snd r.
  Proof.
    unfold proto_records, load_proto, read_file, load_record. destruct (read_all _ _) as [recs b] eqn:E. intros E' Hi.
    destruct (decode_all_nth _ _ _ _ _ _ E' Hi) as (x & Hx & Ed & Es). rewrite Nat2Z.id.
    rewrite (read_all_nth _ _ _ _ _ _ E Hx). now rewrite Ed.
  Qed.
  Lemma records_nth path l ok i r : records path = (l, ok) -> nth_error l i = Some r -> load_tm path (Z.of_nat i) = snd r.
  Proof.
    unfold M_Load.records, M_Load.load_tm. intros E Hi. destruct (files path) as [bytes|]; [|injection E as <- _; destruct i; discriminate].
    assert (Hm : forall s, morphett_records s = (l, ok) -> load_morphett s (Z.of_nat i) = snd r).
    { intros s. unfold morphett_records, load_morphett. destruct (morphett_record s) as [[[tab st] sy]|]; [|intros X; injection X as <- _; destruct i; discriminate].
      destruct (write_tm _ _ _); intros X; injection X as <- _; [|destruct i; discriminate]. destruct i as [|[|i]]; cbn in Hi; [|discriminate..].
      injection Hi as <-. reflexivity. }
    destruct (guess_module path).
    - destruct (if is_gz path then gunzip bytes else Some bytes) as [data|]; [|injection E as <- _; destruct i; discriminate]. eapply proto_nth; eauto.
    - destruct (is_gz path).
      + destruct (gunzip bytes) as [[|? ?]|]; auto; injection E as <- _; destruct i; discriminate.
      + destruct (text_of bytes) as [s|]; auto. injection E as <- _; destruct i; discriminate.
    - destruct (is_gz path).
      + destruct (gunzip bytes) as [[|? ?]|]; injection E as <- _; destruct i; discriminate.
      + destruct (text_of bytes) as [s|]; [|injection E as <- _; destruct i; discriminate]. eapply text_nth; eauto.
  Qed.

  (** the name of a record: file name, colon, number *)
  Lemma get_numbered path k : existsb (Ascii.eqb ":") path = false -> get_tm (path ++ ":"%char :: number_name k) = load_tm path (Z.of_nat k).
  Proof.
    intros H. unfold M_Load.get_tm. assert (C : existsb (Ascii.eqb ":") (path ++ ":"%char :: number_name k) = true).
    { apply existsb_exists. exists ":"%char. split; [apply in_elt|reflexivity]. }
    rewrite (colon_not_literal _ C), C, split_first, (split_none _ _ (number_no_colon k)) by auto. now rewrite number_int.
  Qed.
End Facts.

Lemma first_packed_spec bytes l : match first_packed bytes l with
  | Some i => (exists r, nth_error l i = Some r /\ packed_of (fst r) = bytes) /\ forall j r, j < i -> nth_error l j = Some r -> packed_of (fst r) <> bytes
  | None => forall j r, nth_error l j = Some r -> packed_of (fst r) <> bytes
  end.
Proof.
  induction l as [|r l IH]; cbn [first_packed]; [intros [|j] r H; discriminate|].
  destruct (bytes_eqb (packed_of (fst r)) bytes) eqn:E.
  - apply bytes_eqb_spec in E. split; [exists r; auto|]. intros j r' Hj. lia.
  - assert (E' : packed_of (fst r) <> bytes) by (intros X; apply bytes_eqb_spec in X; congruence).
    destruct (first_packed bytes l) as [i|]; cbn [option_map].
    + destruct IH as ((r' & H1 & H2) & H3). split; [exists r'; auto|]. intros [|j] x Hj Hx; cbn in Hx; [injection Hx as <-; auto|]. eapply H3; eauto. lia.
    + intros [|j] x Hx; cbn in Hx; [injection Hx as <-; auto|]. eapply IH; eauto.
Qed.

(** pack_tm succeeds on the machines of this size, and the bytes determine the table *)
Lemma pack_small n m tab : std_table n m tab -> 0 < n <= 7 -> 0 < m <= 7 -> exists b, pack_tm tab n m = Some b /\ b <> [] /\ unpack_tm b = Some (tab, n, m).
Proof.
  intros Std Hn Hm. destruct (pack_roundtrip n m tab) as (b & E & L & _ & U); try lia; auto.
  - intros i j t Ht. pose proof (proj2 Std _ _ _ Ht) as Hs. unfold packable. destruct Hs; simpl; [auto|right; split; [lia|auto]|right; lia].
  - exists b. split; auto. split; auto. intros ->. cbn in L. nia.
Qed.
