(** * Property C67: a machine named on the command line *)
Require Import ZArith List Lia Bool Arith Ascii String.
From Verif Require Import Spec_TM M_Turing_Machine P_Macro P_Quint M_IO P_IO P_Formats P_Files Prop_Macro M_Morphett P_Morphett M_Load P_Load.
Import ListNotations.
Open Scope nat_scope.

Definition str_of (x : string) : str := list_ascii_of_string x.
(** "file:number" *)
Definition numbered (path : str) (k : nat) : str := path ++ ":"%char :: number_name k.
Definition no_colon (path : str) : Prop := ~ In ":"%char path.

Lemma no_colon_eqb path : no_colon path -> existsb (Ascii.eqb ":") path = false.
Proof. intros H. destruct (existsb _ path) eqn:E; auto. apply existsb_exists in E. destruct E as (c & Hc & X). apply Ascii.eqb_eq in X. now subst c. Qed.
Lemma colon_eqb path : In ":"%char path -> existsb (Ascii.eqb ":") path = true.
Proof. intros H. apply existsb_exists. exists ":"%char. split; auto. Qed.

Lemma parse_std s tab n m : parse_tm s = Some (tab, n, m) -> std_table n m tab /\ 0 < n /\ 0 < m.
Proof.
  unfold parse_tm. destruct (existsb _ s); [discriminate|]. destruct (otraverse _) as [rows|] eqn:Er; [|discriminate].
  destruct (row_quints _ _) as [qs|]; [|discriminate]. destruct (tm_from_quintuples qs _ _) as [tab'|] eqn:Eq; [|discriminate].
  cbn [option_map]. intros H. injection H as <- <- <-. split; [eapply quintuples_std; exact Eq|]. split; [|lia].
  apply otraverse_length in Er. rewrite map_length in Er. rewrite Er. destruct (split_first_word "_" (strip s)) as (w & l & ->). cbn. lia.
Qed.

(** a record as the program makes it: it holds a machine, and its method tm() gives what it was made
    of or what the stored table is read as *)
Definition written (r : found_record) : Prop := exists tab n m,
  std_table n m tab /\ 0 < n /\ 0 < m /\ write_tm tab n m = Some (fst r) /\ (snd r = Some (tab, n, m) \/ snd r = read_tm (fst r)).

Lemma list_read_size l tab n m : tm_from_list l = Some (tab, n, m) -> n = l_states l /\ m = l_symbols l /\ std_table n m tab.
Proof.
  unfold tm_from_list. destruct (otraverse _) as [qs|]; [|discriminate]. destruct (tm_from_quintuples _ _ _) as [tab'|] eqn:E; [|discriminate].
  cbn [option_map]. intros H. injection H as <- <- <-. split; auto. split; auto. eapply quintuples_std; eauto.
Qed.
(** small machines are packed and read back, larger ones keep their size *)
Lemma written_cases r : written r ->
  (exists tab n m b, std_table n m tab /\ 0 < n <= 7 /\ 0 < m <= 8 /\ pack_tm tab n m = Some b /\ fst r = Packed b /\ b <> [] /\
     unpack_tm b = Some (tab, n, m) /\ snd r = Some (tab, n, m)) \/
  (packed_of (fst r) = [] /\ forall tab n m, snd r = Some (tab, n, m) -> std_table n m tab /\ 0 < n /\ 0 < m /\ (7 < n \/ 8 < m)).
Proof.
  intros (tab & n & m & Std & Hn & Hm & Ew & Es). unfold write_tm in Ew. destruct (Nat.leb n 7 && Nat.leb m 8)%bool eqn:Eb.
  - left. apply andb_true_iff in Eb. destruct Eb as (E1 & E2). apply Nat.leb_le in E1, E2.
    destruct (pack_tm tab n m) as [b|] eqn:Ep; [|discriminate]. cbn [option_map] in Ew. injection Ew as Ew.
    destruct (pack_roundtrip n m tab) as (b' & Ep' & Lb & _ & U); auto.
    { intros i j t Ht. pose proof (proj2 Std _ _ _ Ht) as Hs. assert (D : t_cond t = UNDEFINED \/ t_cond t <> UNDEFINED) by (destruct (t_cond t); auto; right; discriminate).
      destruct D as [D|D]; [left; auto|right].
      assert (S7 : t_sym t < 7) by (destruct (Nat.lt_ge_cases (t_sym t) 7); auto; rewrite (pack_tm_fails n m tab i j t Ht) in Ep; [discriminate|congruence|lia]).
      split; auto; destruct Hs; simpl; auto; lia. }
    rewrite Ep in Ep'. injection Ep' as <-. exists tab, n, m, b. split; auto. split; [lia|]. split; [lia|]. split; auto. split; auto.
    split; [intros ->; cbn in Lb; nia|]. split; auto. destruct Es as [Es|Es]; auto. rewrite Es, <- Ew. cbn [read_tm]. exact U.
  - right. destruct (tm_to_list tab n m) as [l|] eqn:El; [|discriminate]. cbn [option_map] in Ew. injection Ew as Ew.
    split; [now rewrite <- Ew|]. intros tab' n' m' E. apply andb_false_iff in Eb. rewrite !Nat.leb_gt in Eb.
    destruct Es as [Es|Es]; [rewrite Es in E; injection E as <- <- <-; auto|].
    rewrite Es, <- Ew in E. cbn [read_tm] in E. apply list_read_size in E. destruct E as (-> & -> & Std').
    unfold tm_to_list in El. destruct (otraverse _) in El; [|discriminate]. cbn [option_map] in El. injection El as <-. cbn [l_states l_symbols] in *. auto.
Qed.

Section C67.
  Variable files : str -> option (list Z).
  Variable gunzip : list Z -> option (list Z).
  Variable decode : list Z -> option proto_tm.
  Notation get_tm := (get_tm files gunzip decode).
  Notation load_tm := (load_tm files gunzip decode).
  Notation records := (records files gunzip decode).
  Notation find_record := (find_record files gunzip decode).
  Notation pb_records := (pb_records files gunzip decode).
  Notation io_find := (io_find files gunzip decode).

  (** what is taken for a machine is exactly a sequence of transitions, --- and _ *)
  Theorem C67_literal_exact s : is_literal s = true <-> exists l, l <> [] /\ Forall piece l /\ s = List.concat l.
  Proof. exact (literal_spec s). Qed.

  (** the text the program prints for a machine names that machine, whatever the files are *)
  Theorem C67_literal n m tab : std_table n m tab -> 0 < n < 25 -> 0 < m < 10 ->
    exists s, ttable_str tab n m = Some s /\ get_tm s = Some (tab, n, m).
  Proof.
    intros Std Hn Hm. exists (table_text tab). split; [apply print_std; auto; lia|]. unfold M_Load.get_tm.
    rewrite (table_text_literal n m tab Std Hn Hm). apply (parse_table_text n m); auto; lia.
  Qed.

  (** a name that is no machine and has no colon is the first record of that file *)
  Theorem C67_plain path : is_literal path = false -> no_colon path -> get_tm path = get_tm (numbered path 0).
  Proof.
    intros H C. unfold numbered. rewrite get_numbered by (now apply no_colon_eqb). unfold M_Load.get_tm. now rewrite H, (no_colon_eqb _ C).
  Qed.

  (** the machine with number i in a file is the machine of the i-th record an iteration over the file gives *)
  Theorem C67_record path l ok i r : no_colon path -> records path = (l, ok) -> nth_error l i = Some r -> get_tm (numbered path i) = snd r.
  Proof. intros C E Hi. unfold numbered. rewrite get_numbered by (now apply no_colon_eqb). eapply records_nth; eauto. Qed.

  (** a file of the text writer; beyond its end there is an exception *)
  Theorem C67_text_file path bytes es parts i : no_colon path -> guess_module path = StdText -> is_gz path = false ->
    files path = Some bytes -> text_of bytes = Some (List.concat parts) ->
    Forall entry_ok es -> otraverse (map write_entry es) = Some parts ->
    get_tm (numbered path i) = nth_error (map fst es) i.
  Proof.
    intros C G Z F T Ok W. unfold numbered. rewrite get_numbered by (now apply no_colon_eqb). unfold M_Load.load_tm. rewrite F, G, Z, T.
    unfold load_text. rewrite Nat2Z.id. clear F T. revert es parts Ok W. induction i as [|i IH]; intros es parts Ok W.
    - destruct es as [|e es]; cbn [map otraverse] in W; [injection W as <-; reflexivity|].
      inversion Ok; subst. destruct (write_entry e) as [se|] eqn:Ee; [|discriminate]. destruct (otraverse (map write_entry es)) as [s'|]; [|discriminate].
      injection W as <-. cbn [List.concat skip_lines]. rewrite (read_entry e se) by auto. reflexivity.
    - destruct es as [|e es]; cbn [map otraverse] in W.
      + injection W as <-. cbn. clear. induction i as [|i IH]; [reflexivity|exact IH].
      + inversion Ok; subst. destruct (write_entry e) as [se|] eqn:Ee; [|discriminate]. destruct (otraverse (map write_entry es)) as [s'|] eqn:Es; [|discriminate].
        injection W as <-. cbn [List.concat skip_lines]. pose proof (read_entry e se (List.concat s') H1 Ee) as R.
        unfold read_text in R. destruct (readline (se ++ List.concat s')) as [line rest]. cbn [snd].
        destruct (strip line) as [|c0 ln]; [discriminate|]. destruct (parse_tm _) as [[[? ?] ?]|]; [|discriminate].
        destruct (write_tm _ _ _); [|discriminate]. injection R as _ ->. cbn [map nth_error]. apply IH; auto.
  Qed.

  (** a record file: each machine is the one that was stored *)
  Theorem C67_record_file path data recs i rec tab n m p : no_colon path -> guess_module path = Proto -> is_gz path = false ->
    files path = Some data -> write_records recs = Some data -> nth_error recs i = Some rec -> decode rec = Some p ->
    std_table n m tab -> 0 < n <= 7 -> 0 < m <= 7 -> write_tm tab n m = Some p ->
    get_tm (numbered path i) = Some (tab, n, m).
  Proof.
    intros C G Z F W Hi D Std Hn Hm Ew. unfold numbered. rewrite get_numbered by (now apply no_colon_eqb). unfold M_Load.load_tm. rewrite F, G, Z.
    unfold load_proto. rewrite Nat2Z.id, (load_full recs data i W), Hi, D.
    destruct (pack_small n m tab Std Hn Hm) as (b & Ep & _ & U). unfold write_tm in Ew.
    replace (Nat.leb n 7 && Nat.leb m 8)%bool with true in Ew by (symmetry; apply andb_true_iff; rewrite !Nat.leb_le; lia).
    rewrite Ep in Ew. cbn in Ew. injection Ew as <-. exact U.
  Qed.

  (** Find_Record: the number it prints names the machine, and it is the first; if it prints nothing, the
      machine is not there *)
  Theorem C67_find text path tab n m l ok : no_colon path -> parse_tm text = Some (tab, n, m) -> n <= 7 -> m <= 7 ->
    records path = (l, ok) -> Forall written l ->
    match find_record text path with
    | Found i => i < List.length l /\ get_tm (numbered path i) = Some (tab, n, m) /\
                 forall j, j < i -> get_tm (numbered path j) <> Some (tab, n, m)
    | NotFound => ok = true /\ forall j, j < List.length l -> get_tm (numbered path j) <> Some (tab, n, m)
    | Raised => ok = false /\ forall j, j < List.length l -> get_tm (numbered path j) <> Some (tab, n, m)
    end.
  Proof.
    intros C P Hn Hm R W. destruct (parse_std _ _ _ _ P) as (Std & N0 & M0).
    destruct (pack_small n m tab Std) as (b & Ep & Nb & U); try lia. unfold M_Load.find_record. rewrite P, Ep, R.
    assert (Iff : forall j r, nth_error l j = Some r -> (packed_of (fst r) = b <-> get_tm (numbered path j) = Some (tab, n, m))).
    { intros j r Hj. rewrite (C67_record path l ok j r C R Hj). rewrite Forall_forall in W. specialize (W r (nth_error_In _ _ Hj)).
      apply written_cases in W. destruct W as [(tab' & n' & m' & b' & _ & _ & _ & Ep' & Ef & _ & U' & Es)|(Ef & Es)].
      - rewrite Ef, Es. cbn [packed_of]. split; [intros ->; congruence|]. intros X. injection X as -> -> ->. congruence.
      - rewrite Ef. split; [congruence|]. intros X. destruct (Es _ _ _ X) as (_ & _ & _ & [H|H]); lia. }
    pose proof (first_packed_spec b l) as F. destruct (first_packed b l) as [i|].
    - destruct F as ((r & Hi & Hb) & F). assert (Li : i < List.length l) by (apply nth_error_Some; congruence).
      split; auto. split; [eapply Iff; eauto|]. intros j Hj X. destruct (nth_error l j) as [r'|] eqn:Ej; [|apply nth_error_None in Ej; lia].
      apply (F j r' Hj Ej). eapply Iff; eauto.
    - assert (None_ : forall j, j < List.length l -> get_tm (numbered path j) <> Some (tab, n, m)).
      { intros j Hj X. destruct (nth_error l j) as [r'|] eqn:Ej; [|apply nth_error_None in Ej; lia]. apply (F j r' Ej). eapply Iff; eauto. }
      destruct ok; auto.
  Qed.
  (** the records of a text file are always such records *)
  Theorem C67_find_text path l ok : guess_module path = StdText -> records path = (l, ok) -> Forall written l.
  Proof.
    intros G. unfold M_Load.records. rewrite G. destruct (files path) as [bytes|]; [|intros E; injection E as <- _; constructor].
    destruct (is_gz path).
    { destruct (gunzip bytes) as [[|? ?]|]; intros E; injection E as <- _; constructor. }
    destruct (text_of bytes) as [s|]; [|intros E; injection E as <- _; constructor].
    generalize (S (List.length s)). intros fuel. revert s l ok. induction fuel as [|fuel IH]; intros s l ok E; cbn [text_records] in E.
    { injection E as <- _. constructor. }
    destruct (read_text s) as [[[[[tab n] m]|] rest]|] eqn:Er; [|injection E as <- _; constructor..].
    destruct (write_tm tab n m) as [p|] eqn:Ew; [|injection E as <- _; constructor].
    destruct (text_records fuel rest) as [l' b] eqn:E'. injection E as <- _. constructor; [|eauto].
    unfold read_text in Er. destruct (readline s) as [line rest']. destruct (strip line) as [|c0 ln]; [discriminate|].
    destruct (parse_tm _) as [[[tab' n'] m']|] eqn:Ep; [|discriminate]. destruct (write_tm tab' n' m'); [|discriminate]. injection Er as -> -> -> _.
    apply parse_std in Ep. exists tab, n, m. cbn [fst snd]. tauto.
  Qed.

  (** IO_Find: the first record, in the first file, whose machine is the one with this text *)
  Definition holds (path : str) (i : nat) (M : machine) : Prop := exists l ok r, pb_records path = (l, ok) /\ nth_error l i = Some r /\ snd r = Some M.
  Definition good_file (path : str) : Prop := exists l, pb_records path = (l, true) /\ Forall written l /\ Forall (fun r => snd r <> None) l.
  Theorem C67_io_find paths tab n m s : std_table n m tab -> 0 < n < 25 -> 0 < m < 10 -> ttable_str tab n m = Some s ->
    Forall good_file paths ->
    match io_find s paths with
    | Found (path, i) => exists before after, paths = before ++ path :: after /\ holds path i (tab, n, m) /\
        (forall j, j < i -> ~ holds path j (tab, n, m)) /\ forall q j, In q before -> ~ holds q j (tab, n, m)
    | NotFound => forall q j, In q paths -> ~ holds q j (tab, n, m)
    | Raised => False
    end.
  Proof.
    intros Std Hn Hm Es. rewrite (print_std n m tab Std) in Es by lia. injection Es as <-.
    assert (Ne : table_text tab <> []) by (eapply table_text_nonempty; [apply Std|lia|lia]).
    assert (One : forall l, Forall written l -> Forall (fun r => snd r <> None) l ->
      match first_text (table_text tab) l true with
      | Found i => (exists r, nth_error l i = Some r /\ snd r = Some (tab, n, m)) /\ forall j r, j < i -> nth_error l j = Some r -> snd r <> Some (tab, n, m)
      | NotFound => forall j r, nth_error l j = Some r -> snd r <> Some (tab, n, m)
      | Raised => False
      end).
    { induction l as [|r l IH]; intros W S; cbn [first_text]; [intros [|j] r H; discriminate|].
      inversion W as [|? ? W1 W2]; inversion S as [|? ? S1 S2]; subst. specialize (IH W2 S2).
      destruct (snd r) as [[[tab' n'] m']|] eqn:Er; [|congruence].
      assert (Sz : std_table n' m' tab' /\ 0 < n' /\ 0 < m').
      { apply written_cases in W1. destruct W1 as [(t2 & n2 & m2 & b & S2' & ? & ? & _ & _ & _ & _ & X)|(_ & X)].
        - rewrite Er in X. injection X as -> -> ->. repeat split; try lia; apply S2'.
        - destruct (X _ _ _ Er) as (? & ? & ? & _). auto. }
      destruct Sz as (Std' & N' & M').
      assert (T : exists s', ttable_str tab' n' m' = Some s' /\ (s' = table_text tab <-> (tab', n', m') = (tab, n, m))).
      { destruct (Nat.ltb n' 25 && Nat.ltb m' 10)%bool eqn:Eb.
        - apply andb_true_iff in Eb. rewrite !Nat.ltb_lt in Eb. exists (table_text tab'). split; [apply print_std; auto; lia|]. split.
          + intros X. pose proof (parse_table_text n' m' tab' Std') as Y. rewrite X in Y. rewrite (parse_table_text n m tab Std) in Y by lia.
            assert (Z : Some (tab, n, m) = Some (tab', n', m')) by (apply Y; lia). congruence.
          + intros X. injection X as -> -> ->. reflexivity.
        - exists []. unfold ttable_str. rewrite Eb. split; auto. split; [congruence|]. intros X. injection X as -> -> ->.
          apply andb_false_iff in Eb. rewrite !Nat.ltb_ge in Eb. lia. }
      destruct T as (s' & -> & T). destruct (str_eqb s' (table_text tab)) eqn:Eq.
      - apply str_eqb_spec in Eq. split; [|intros; lia]. exists r. split; auto. rewrite Er. f_equal. now apply T.
      - assert (D : snd r <> Some (tab, n, m)) by (rewrite Er; intros X; injection X as X; assert (Y : s' = table_text tab) by (apply T; congruence); apply str_eqb_spec in Y; congruence).
        destruct (first_text (table_text tab) l true) as [i| |]; auto.
        + destruct IH as ((r' & H1 & H2) & H3). split; [exists r'; auto|]. intros [|j] x Hj Hx; cbn in Hx; [injection Hx as <-; auto|]. eapply H3; eauto. lia.
        + intros [|j] x Hx; cbn in Hx; [injection Hx as <-; auto|]. eapply IH; eauto. }
    induction paths as [|path paths IH]; intros G; cbn [M_Load.io_find]; [intros q j []|].
    inversion G as [|? ? (l & El & W & S) G2]; subst. rewrite El. specialize (One l W S). specialize (IH G2).
    destruct (first_text (table_text tab) l true) as [i| |]; [| |contradiction].
    - destruct One as ((r & H1 & H2) & H3). exists [], paths. split; auto. split; [exists l, true, r; auto|]. split; [|intros q j []].
      intros j Hj (l' & ok & r' & El' & Hj' & E'). rewrite El in El'. injection El' as <- _. exact (H3 j r' Hj Hj' E').
    - assert (Here : forall j, ~ holds path j (tab, n, m)).
      { intros j (l' & ok & r' & El' & Hj' & E'). rewrite El in El'. injection El' as <- _. exact (One j r' Hj' E'). }
      destruct (io_find (table_text tab) paths) as [[p i]| |]; auto.
      + destruct IH as (before & after & -> & H1 & H2 & H3). exists (path :: before), after. split; auto. split; auto. split; auto.
        intros q j [<-|Hq]; auto.
      + intros q j [<-|Hq]; auto.
  Qed.

  (** ** where the names mislead *)

  (** a negative number is the first record *)
  Theorem C67_negative path number k : no_colon path -> no_colon number -> py_int number = Some k -> (k < 0)%Z -> guess_module path <> Morphett ->
    get_tm (path ++ ":"%char :: number) = get_tm (numbered path 0).
  Proof.
    intros C Cn E K G. unfold numbered. rewrite get_numbered by (now apply no_colon_eqb). unfold M_Load.get_tm.
    assert (Cc : existsb (Ascii.eqb ":") (path ++ ":"%char :: number) = true) by (apply colon_eqb, in_elt).
    rewrite (colon_not_literal _ Cc), Cc, split_first, split_none, E by (now apply no_colon_eqb).
    unfold M_Load.load_tm. destruct (files path); auto. destruct (guess_module path); [|congruence|].
    - destruct (if is_gz path then _ else _); auto. unfold load_proto. destruct k; try lia. reflexivity.
    - destruct (is_gz path); auto. destruct (text_of l); auto. unfold load_text. destruct k; try lia. reflexivity.
  Qed.
  (** what follows a second colon is ignored *)
  Theorem C67_more_parts path k rest : no_colon path -> get_tm (numbered path k ++ ":"%char :: rest) = get_tm (numbered path k).
  Proof.
    intros C. unfold numbered. rewrite get_numbered by (now apply no_colon_eqb). rewrite <- app_assoc. unfold M_Load.get_tm.
    assert (Cc : existsb (Ascii.eqb ":") (path ++ (":"%char :: number_name k) ++ ":"%char :: rest) = true) by (apply colon_eqb, in_elt).
    rewrite (colon_not_literal _ Cc), Cc. cbn [app]. rewrite split_first by (now apply no_colon_eqb). rewrite split_first by apply number_no_colon.
    now rewrite number_int.
  Qed.
  (** a compressed text file cannot be read *)
  Theorem C67_gz_text_refuted path k : no_colon path -> guess_module path = StdText -> is_gz path = true -> get_tm (numbered path k) = None.
  Proof. intros C G Z. unfold numbered. rewrite get_numbered by (now apply no_colon_eqb). unfold M_Load.load_tm. rewrite G, Z. now destruct (files path). Qed.
End C67.

(** a file whose name has a colon, or is a machine, cannot be named at all *)
Theorem C67_colon_name_refuted files files' gunzip decode name : In ":"%char name ->
  (forall p, no_colon p -> files p = files' p) ->
  get_tm files gunzip decode name = get_tm files' gunzip decode name.
Proof.
  intros Hc H. unfold get_tm. apply colon_eqb in Hc. rewrite (colon_not_literal _ Hc), Hc.
  destruct (split_on ":" name) as [|f [|k l]] eqn:Es; auto. destruct (py_int k); auto. unfold load_tm. rewrite (H f); auto.
  assert (X : forall s, match split_on ":" s with w :: _ => existsb (Ascii.eqb ":") w = false | [] => False end).
  { clear. induction s as [|c s IH]; [reflexivity|]. cbn [split_on]. destruct (Ascii.eqb c ":") eqn:E; [reflexivity|].
    destruct (split_on ":" s); [contradiction|]. cbn [existsb]. now rewrite Ascii.eqb_sym, E. }
  specialize (X name). rewrite Es in X. intros Y. apply colon_eqb in Y. congruence.
Qed.
Theorem C67_literal_name_refuted files files' gunzip decode name : is_literal name = true ->
  get_tm files gunzip decode name = get_tm files' gunzip decode name.
Proof. intros H. unfold get_tm. now rewrite H. Qed.

(** ** examples *)
Definition nl : str := ["010"%char].
Definition bytes_of (s : str) : list Z := map (fun c => Z.of_nat (nat_of_ascii c)) s.
Definition one_file (name content : str) : str -> option (list Z) := fun p => if str_eqb p name then Some (bytes_of content) else None.
Definition no_gz : list Z -> option (list Z) := fun _ => None.
Definition no_pb : list Z -> option proto_tm := fun _ => None.
(** a serialization that is only the packed table *)
Definition plain_pb : list Z -> option proto_tm := fun b => Some (Packed b).

Definition two : str := str_of "1RB---_0LA---" ++ nl ++ str_of "1RB1LB_1LA1RZ Halt 6 4" ++ nl.
Definition F2 := one_file (str_of "dir/m.txt") two.
Example C67_example_get :
  get_tm F2 no_gz no_pb (str_of "dir/m.txt:1") = Some (bb2, 2, 2) /\
  get_tm F2 no_gz no_pb (str_of "1RB1LB_1LA1RZ") = Some (bb2, 2, 2) /\
  get_tm F2 no_gz no_pb (str_of "dir/m.txt:2") = None /\ numbered (str_of "dir/m.txt") 1 = str_of "dir/m.txt:1" /\
  no_colon (str_of "dir/m.txt") /\ is_literal (str_of "dir/m.txt") = false /\ guess_module (str_of "dir/m.txt") = StdText /\ is_gz (str_of "dir/m.txt") = false.
Proof.
  split; [vm_compute; reflexivity|]. split; [vm_compute; reflexivity|]. split; [vm_compute; reflexivity|]. split; [vm_compute; reflexivity|].
  split; [|split; [vm_compute; reflexivity|split; vm_compute; reflexivity]]. intros H. vm_compute in H. intuition discriminate.
Qed.
Example C67_example_find :
  find_record F2 no_gz no_pb (str_of "1RB1LB_1LA1RH") (str_of "dir/m.txt") = Found 1 /\
  find_record F2 no_gz no_pb (str_of "1RB1RB_1LA1RH") (str_of "dir/m.txt") = NotFound /\
  parse_tm (str_of "1RB1LB_1LA1RH") = Some (bb2, 2, 2).
Proof. split; [vm_compute; reflexivity|]. split; vm_compute; reflexivity. Qed.
Definition P2 : str -> option (list Z) := fun p => if str_eqb p (str_of "x.pb") then Some [4; 0; 0; 0; 210; 18; 138; 66]%Z else None.
Example C67_example_pb : get_tm P2 no_gz plain_pb (str_of "x.pb") = Some (bb2, 2, 2) /\ guess_module (str_of "x.pb") = Proto /\
  write_records [[210; 18; 138; 66]]%Z = P2 (str_of "x.pb") /\ write_tm bb2 2 2 = plain_pb [210; 18; 138; 66]%Z /\
  good_file P2 no_gz plain_pb (str_of "x.pb") /\
  io_find P2 no_gz plain_pb (str_of "1RB1LB_1LA1RZ") [str_of "x.pb"] = Found (str_of "x.pb", 0).
Proof.
  split; [vm_compute; reflexivity|]. split; [vm_compute; reflexivity|]. split; [vm_compute; reflexivity|]. split; [vm_compute; reflexivity|].
  split; [|vm_compute; reflexivity]. exists [(Packed [210; 18; 138; 66]%Z, Some (bb2, 2, 2))]. split; [vm_compute; reflexivity|]. split.
  - constructor; [|constructor]. exists bb2, 2, 2. split; [apply (quintuples_std bb2_rows); reflexivity|]. split; [lia|]. split; [lia|].
    split; [vm_compute; reflexivity|]. left. reflexivity.
  - constructor; [discriminate|constructor].
Qed.

(** "file:-1" is not refused *)
Theorem C67_negative_refuted : get_tm F2 no_gz no_pb (str_of "dir/m.txt:-1") = parse_tm (str_of "1RB---_0LA---") /\
  parse_tm (str_of "1RB---_0LA---") <> None.
Proof. split; [vm_compute; reflexivity|]. vm_compute. discriminate. Qed.
(** Find_Record and the other loops over a file stop at a blank line, "file:number" does not; and it
    counts the blank line. *)
Definition blank : str := str_of "1RB---_0LA---" ++ nl ++ nl ++ str_of "1RB1LB_1LA1RZ" ++ nl.
Theorem C67_blank_line_refuted : let F := one_file (str_of "m.txt") blank in
  get_tm F no_gz no_pb (str_of "m.txt:1") = None /\ get_tm F no_gz no_pb (str_of "m.txt:2") = Some (bb2, 2, 2) /\
  find_record F no_gz no_pb (str_of "1RB1LB_1LA1RZ") (str_of "m.txt") = NotFound.
Proof. split; [vm_compute; reflexivity|]. split; vm_compute; reflexivity. Qed.
(** A machine with more than 7 states is loaded, but never found; if it uses state H, there is an exception. *)
Definition eight : string := "1RB---_1RC---_1RD---_1RE---_1RF---_1RG---_1RA---_------".
Definition eight' : string := "1RB---_1RC---_1RD---_1RE---_1RF---_1RG---_1RH---_1RA---".
Theorem C67_find_large_refuted : let F := one_file (str_of "m.txt") (str_of eight ++ nl ++ str_of eight' ++ nl) in
  get_tm F no_gz no_pb (str_of "m.txt:0") = parse_tm (str_of eight) /\ parse_tm (str_of eight) <> None /\
  find_record F no_gz no_pb (str_of eight) (str_of "m.txt") = NotFound /\
  get_tm F no_gz no_pb (str_of "m.txt:1") = parse_tm (str_of eight') /\ parse_tm (str_of eight') <> None /\
  find_record F no_gz no_pb (str_of eight') (str_of "m.txt") = Raised.
Proof.
  split; [vm_compute; reflexivity|]. split; [vm_compute; discriminate|]. split; [vm_compute; reflexivity|]. split; [vm_compute; reflexivity|].
  split; [vm_compute; discriminate|vm_compute; reflexivity].
Qed.
(** IO_Find compares texts: another text of the same machine is not found *)
Theorem C67_io_find_text_refuted :
  parse_tm (str_of "1RB1LB_1LA1RH") = parse_tm (str_of "1RB1LB_1LA1RZ") /\
  io_find P2 no_gz plain_pb (str_of "1RB1LB_1LA1RZ") [str_of "x.pb"] = Found (str_of "x.pb", 0) /\
  io_find P2 no_gz plain_pb (str_of "1RB1LB_1LA1RH") [str_of "x.pb"] = NotFound.
Proof. split; [vm_compute; reflexivity|]. split; vm_compute; reflexivity. Qed.
Example C67_example_names : is_literal (str_of "1RB---") = true /\ guess_module (str_of "old.pb.gz") = Proto /\ is_gz (str_of "old.pb.gz") = true /\
  guess_module (str_of "a.pb/m.txt") = StdText /\ guess_module (str_of "x.morphett") = Morphett /\ guess_module (str_of "m.txt.gz") = StdText /\
  py_int (str_of " -0_7 ") = Some (-7)%Z /\ py_int (str_of "1__0") = None.
Proof. split; [vm_compute; reflexivity|]. repeat (split; [vm_compute; reflexivity|]). vm_compute. reflexivity. Qed.

(** The format goes by the suffixes of the last component of the path, whatever the directories are called. *)
Lemma split_app sep a b : split_on sep (a ++ sep :: b) = split_on sep a ++ split_on sep b.
Proof.
  induction a as [|c a IH]; cbn [app split_on]; [now rewrite Ascii.eqb_refl|]. destruct (Ascii.eqb c sep); [now rewrite IH|].
  rewrite IH. destruct (split_first_word sep a) as (w & l & ->). reflexivity.
Qed.
Lemma last_app_ne {A} (l1 l2 : list A) d : l2 <> [] -> last (l1 ++ l2) d = last l2 d.
Proof. intros H. induction l1 as [|x l1 IH]; [reflexivity|]. cbn [app last]. rewrite IH. now destruct l1, l2. Qed.
Definition no_char (c : ascii) (s : str) : Prop := existsb (Ascii.eqb c) s = false.
Lemma no_char_app c s t : no_char c s -> no_char c t -> no_char c (s ++ t).
Proof. unfold no_char. intros H1 H2. now rewrite existsb_app, H1, H2. Qed.
Definition with_suffixes (stem : str) (exts : list str) : str := stem ++ List.concat (map (cons "."%char) exts).
Lemma split_suffixes stem exts : no_char "." stem -> Forall (no_char ".") exts -> split_on "." (with_suffixes stem exts) = stem :: exts.
Proof.
  unfold with_suffixes. intros H F. revert stem H. induction F as [|e exts He F IH]; intros stem H; cbn [map List.concat].
  - rewrite app_nil_r. now apply split_none.
  - cbn [app]. rewrite split_first by exact H. f_equal. now apply IH.
Qed.
Lemma last_not_dot s t d : s <> [] -> no_char "." s -> Ascii.eqb (last (t ++ s) d) "." = false.
Proof.
  intros N H. rewrite last_app_ne by exact N. destruct (exists_last N) as (s' & c & ->). rewrite last_last.
  unfold no_char in H. rewrite existsb_app in H. apply orb_false_iff in H as [_ H]. cbn [existsb] in H. rewrite orb_false_r in H.
  now rewrite Ascii.eqb_sym.
Qed.
Theorem C67_format :
  forall (dir stem : str) (exts : list str),
  dir = [] \/ (exists d, dir = d ++ ["/"%char]) ->
  stem <> [] -> no_char "." stem -> no_char "/" stem ->
  Forall (fun e => e <> [] /\ no_char "." e /\ no_char "/" e) exts ->
  let path := dir ++ with_suffixes stem exts in
  (guess_module path = Proto <-> In (str_of "pb") exts) /\
  (guess_module path = Morphett <-> In (str_of "morphett") exts /\ ~ In (str_of "pb") exts) /\
  (is_gz path = true <-> In (str_of "gz") exts).
Proof.
  intros dir stem exts HD NS DS SS FE path.
  assert (ND : Forall (no_char ".") exts) by (eapply Forall_impl; [|exact FE]; cbn; tauto).
  assert (NSl : no_char "/" (with_suffixes stem exts)).
  { unfold with_suffixes. apply no_char_app; [exact SS|]. clear -FE. induction FE as [|e exts (H1 & H2 & H3) F IH]; [reflexivity|].
    cbn [map List.concat]. apply no_char_app; [|exact IH]. unfold no_char in *. cbn [existsb]. now rewrite H3. }
  assert (NE : with_suffixes stem exts <> [] /\ with_suffixes stem exts <> ["."%char]).
  { unfold with_suffixes. destruct stem as [|c stem]; [contradiction|]. split; [discriminate|]. intros X. cbn in X. injection X as -> _.
    discriminate DS. }
  assert (PN : path_name path = with_suffixes stem exts).
  { unfold path_name, path. destruct HD as [->|(d & ->)].
    - cbn [app]. rewrite split_none by exact NSl. destruct NE as [N1 N2]. cbn [filter].
      destruct (str_eqb (with_suffixes stem exts) []) eqn:E1; [apply str_eqb_eq in E1; contradiction|].
      destruct (str_eqb (with_suffixes stem exts) ["."%char]) eqn:E2; [apply str_eqb_eq in E2; contradiction|]. reflexivity.
    - rewrite <- app_assoc. cbn [app]. rewrite split_app, (split_none _ _ NSl), filter_app. cbn [filter]. destruct NE as [N1 N2].
      destruct (str_eqb (with_suffixes stem exts) []) eqn:E1; [apply str_eqb_eq in E1; contradiction|].
      destruct (str_eqb (with_suffixes stem exts) ["."%char]) eqn:E2; [apply str_eqb_eq in E2; contradiction|].
      cbn [orb negb]. apply last_last. }
  assert (LD : Ascii.eqb (last (with_suffixes stem exts) " "%char) "." = false).
  { unfold with_suffixes. destruct exts as [|e0 exts0] using rev_ind.
    - cbn [map List.concat]. rewrite app_nil_r. apply (last_not_dot stem []); assumption.
    - rewrite map_app, concat_app, app_assoc. cbn [map List.concat]. rewrite app_nil_r.
      apply Forall_app in FE as [_ FE]. inversion FE as [|? ? (F1 & F2 & F3) _]; subst.
      replace ("."%char :: e0) with (["."%char] ++ e0) by reflexivity. rewrite app_assoc. now apply last_not_dot. }
  assert (SX : suffixes path = map (cons "."%char) exts).
  { unfold suffixes. rewrite PN, LD.
    assert (LS : lstrip_dots (with_suffixes stem exts) = with_suffixes stem exts).
    { unfold with_suffixes. destruct stem as [|c stem]; [contradiction|]. cbn [app lstrip_dots].
      unfold no_char in DS. cbn [existsb] in DS. apply orb_false_iff in DS as [D1 _]. rewrite Ascii.eqb_sym in D1. now rewrite D1. }
    rewrite LS, split_suffixes by assumption. reflexivity. }
  assert (MS : forall e, mem_str ("."%char :: e) (suffixes path) = true <-> In e exts).
  { intros e. rewrite SX. unfold mem_str. rewrite existsb_exists. split.
    - intros (x & Hx & E). apply str_eqb_eq in E as <-. apply in_map_iff in Hx as (y & E & Hy). injection E as ->. exact Hy.
    - intros H. exists ("."%char :: e). split; [now apply in_map|now apply str_eqb_eq]. }
  unfold guess_module, is_gz, suffix_pb, suffix_morphett, suffix_gz.
  change ["p"%char; "b"%char] with (str_of "pb"). change ["g"%char; "z"%char] with (str_of "gz").
  change ["m"%char; "o"%char; "r"%char; "p"%char; "h"%char; "e"%char; "t"%char; "t"%char] with (str_of "morphett").
  pose proof (MS (str_of "pb")) as M1. pose proof (MS (str_of "morphett")) as M2. pose proof (MS (str_of "gz")) as M3.
  split; [|split; [|exact M3]].
  - destruct (mem_str _ _); [tauto|]. destruct (mem_str _ _); split; try discriminate; intros X; apply M1 in X; discriminate.
  - destruct (mem_str _ _); [split; [discriminate|]; intros [_ X]; tauto|].
    destruct (mem_str _ _); [|split; [discriminate|]; intros [X _]; apply M2 in X; discriminate].
    split; [intros _|reflexivity]. split; [tauto|]. intros X. apply M1 in X. discriminate.
Qed.
Example C67_format_example : guess_module (str_of "runs.pb/all.txt") = StdText /\ guess_module (str_of "runs.gz/all.pb") = Proto /\
  is_gz (str_of "runs.gz/all.pb") = false /\ guess_module (str_of "dir/pb") = StdText.
Proof. repeat (split; [vm_compute; reflexivity|]). vm_compute. reflexivity. Qed.

(** Line ends: a text file written with the line ends of Windows, or with lone carriage returns, is read as
    the same text. *)
Theorem C67_line_ends :
  forall bytes, ~ In 13%Z bytes ->
  text_of (flat_map (fun b => if (b =? 10)%Z then [13; 10]%Z else [b]) bytes) = text_of bytes /\
  text_of (map (fun b => if (b =? 10)%Z then 13%Z else b) bytes) = text_of bytes.
Proof.
  intros bytes. induction bytes as [|b l IH]; intros H; [now split|].
  destruct IH as [I1 I2]; [intros X; apply H; now right|].
  assert (B : b <> 13%Z) by (intros ->; apply H; now left).
  cbn [flat_map map]. destruct (Z.eqb_spec b 10) as [->|N].
  - cbn [app]. split.
    + cbn [text_of Z.leb Z.ltb Z.eqb Z.compare Pos.compare Pos.compare_cont andb Pos.eqb]. rewrite I1. reflexivity.
    + transitivity (option_map (cons "010"%char) (text_of (map (fun b => if (b =? 10)%Z then 13%Z else b) l))).
      * destruct l as [|c l]; [reflexivity|]. set (x := map _ (c :: l)) in *. cbn [map] in x.
        assert (X : (if (c =? 10)%Z then 13%Z else c) <> 10%Z) by (destruct (Z.eqb_spec c 10); congruence).
        unfold x. cbn [text_of]. cbn [Z.leb Z.ltb Z.eqb Z.compare Pos.compare Pos.compare_cont andb Pos.eqb].
        apply Z.eqb_neq in X. rewrite X. reflexivity.
      * rewrite I2. reflexivity.
  - cbn [app text_of]. apply Z.eqb_neq in B. rewrite B. split; destruct (_ && _)%bool; try reflexivity; [now rewrite I1|now rewrite I2].
Qed.
Example C67_line_ends_example : exists s, text_of [49; 82; 66; 13; 10; 45]%Z = Some s /\ s = str_of "1RB" ++ ["010"%char] ++ str_of "-".
Proof. eexists. split; vm_compute; reflexivity. Qed.

Print Assumptions C67_format.
Print Assumptions C67_line_ends.
Print Assumptions C67_literal_exact.
Print Assumptions C67_literal.
Print Assumptions C67_plain.
Print Assumptions C67_record.
Print Assumptions C67_text_file.
Print Assumptions C67_record_file.
Print Assumptions C67_find.
Print Assumptions C67_find_text.
Print Assumptions C67_io_find.
Print Assumptions C67_negative.
Print Assumptions C67_more_parts.
Print Assumptions C67_gz_text_refuted.
Print Assumptions C67_colon_name_refuted.
Print Assumptions C67_literal_name_refuted.
Print Assumptions C67_negative_refuted.
Print Assumptions C67_blank_line_refuted.
Print Assumptions C67_find_large_refuted.
Print Assumptions C67_io_find_text_refuted.
