(** * More proofs about readers and writers: what the text means, text files, packed tables,
      record files, big integers, the bbchallenge database *)
Require Import ZArith List Lia Bool Arith Ascii.
From Verif Require Import Spec_TM M_Turing_Machine P_Stream P_Macro P_Quint M_IO P_IO.
Import ListNotations.
Open Scope nat_scope.

(** ** What a text means *)

Lemma chunk3_spec s : forall l, chunk3 s = Some l -> s = concat (map flat l).
Proof.
  assert (H : forall k s l, length s <= k -> chunk3 s = Some l -> s = concat (map flat l)).
  { induction k as [|k IH]; intros s0 l Hk E.
    - destruct s0; [|simpl in Hk; lia]. injection E as <-. reflexivity.
    - destruct s0 as [|a [|b [|c s0]]]; simpl in E; try discriminate; [injection E as <-; reflexivity|].
      destruct (chunk3 s0) as [l'|] eqn:E'; [|discriminate]. injection E as <-. simpl.
      rewrite <- (IH s0 l'); auto. simpl in Hk. lia. }
  intros l. now apply (H (length s)).
Qed.

Lemma chunk3_none s : chunk3 s = None -> length s mod 3 <> 0.
Proof.
  assert (H : forall k s, length s <= k -> chunk3 s = None -> length s mod 3 <> 0).
  { induction k as [|k IH]; intros s0 Hk E.
    - destruct s0; [discriminate|simpl in Hk; lia].
    - destruct s0 as [|a [|b [|c s0]]]; try discriminate.
      destruct (chunk3 s0) as [l'|] eqn:E'; [simpl in E; rewrite E' in E; discriminate|].
      replace (length (a :: b :: c :: s0)) with (length s0 + 1 * 3) by (simpl; lia).
      rewrite Nat.mod_add by lia. apply IH; auto. simpl in Hk. lia. }
  now apply (H (length s)).
Qed.

Lemma flat_length l : length (concat (map flat l)) = 3 * length l.
Proof. induction l as [|[[a b] c] l IH]; simpl; auto. rewrite IH. lia. Qed.

Lemma flat_nth l j : firstn 3 (skipn (3 * j) (concat (map flat l))) =
  match nth_error l j with Some t => flat t | None => [] end.
Proof.
  revert j. induction l as [|[[a b] c] l IH]; intros [|j]; simpl; auto.
  specialize (IH j). replace (j + S (j + S (j + 0))) with (S (S (3 * j))) by lia. simpl.
  now rewrite <- IH.
Qed.

(** ** Text files *)

Lemma lstrip_app x t : t <> [] -> (forall c, In c t -> is_space c = false) -> lstrip (x ++ t) = lstrip x ++ t.
Proof.
  intros Hne Ht. induction x as [|c x IH]; simpl; [now apply lstrip_id|]. destruct (is_space c); auto.
Qed.
Lemma lstrip_suffix x : exists p, x = p ++ lstrip x.
Proof.
  induction x as [|c x (p & IH)]; [exists []; auto|]. simpl. destruct (is_space c).
  - exists (c :: p). simpl. now rewrite <- IH.
  - exists []. reflexivity.
Qed.
Lemma strip_app s r : s <> [] -> (forall c, In c s -> is_space c = false) ->
  exists r' p, strip (s ++ r) = s ++ r' /\ r = r' ++ p.
Proof.
  intros Hne Hs. unfold strip.
  assert (E : lstrip (s ++ r) = s ++ r).
  { destruct s as [|c s]; [congruence|]. simpl. now rewrite (Hs c) by (left; auto). }
  rewrite E, rev_app_distr, lstrip_app.
  - destruct (lstrip_suffix (rev r)) as (p & Hp). exists (rev (lstrip (rev r))), (rev p). split.
    + now rewrite rev_app_distr, rev_involutive.
    + rewrite <- rev_app_distr. rewrite <- Hp. symmetry. apply rev_involutive.
  - intros H. apply Hne. destruct s; auto. simpl in H. destruct (rev s); discriminate.
  - intros c Hc. apply Hs. now apply in_rev.
Qed.
Lemma word_app s r : (forall c, In c s -> is_space c = false) ->
  match r with [] => True | c :: _ => is_space c = true end -> word (s ++ r) = s.
Proof.
  intros Hs Hr. induction s as [|c s IH]; simpl.
  - destruct r as [|c r]; simpl; auto. now rewrite Hr.
  - rewrite (Hs c) by (left; auto). f_equal. apply IH. intros; apply Hs; now right.
Qed.
Lemma first_word_strip s c0 r : s <> [] -> (forall c, In c s -> is_space c = false) -> is_space c0 = true ->
  strip (s ++ c0 :: r) <> [] /\ first_word (strip (s ++ c0 :: r)) = s.
Proof.
  intros Hne Hs Hc. destruct (strip_app s (c0 :: r) Hne Hs) as (r' & p & E & Ep). rewrite E. split.
  - destruct s; [congruence|discriminate].
  - unfold first_word.
    assert (El : lstrip (s ++ r') = s ++ r').
    { destruct s as [|c s]; [congruence|]. simpl. now rewrite (Hs c) by (left; auto). }
    rewrite El. apply word_app; auto. destruct r' as [|c r']; auto. simpl in Ep. injection Ep as <- _. auto.
Qed.
Lemma readline_app l rest : (forall c, In c l -> Ascii.eqb c "010" = false) ->
  readline (l ++ "010"%char :: rest) = (l ++ ["010"%char], rest).
Proof.
  induction l as [|c l IH]; intros H; cbn [app readline]; auto.
  rewrite (H c) by (left; auto). rewrite IH by (intros; apply H; now right). reflexivity.
Qed.

Lemma table_text_nonempty n m tab : rect n m tab -> 0 < n -> 0 < m -> table_text tab <> [].
Proof.
  intros (Hl & Hr) Hn Hm. destruct tab as [|row tab]; [simpl in Hl; lia|]. unfold table_text. cbn [map join].
  assert (Hrow : length row = m) by (apply Hr; left; auto). destruct row as [|t row]; [simpl in Hrow; lia|].
  simpl. destruct (cell_text t) as [[a b] c]. simpl. destruct (map _ tab); discriminate.
Qed.

(** ** Packed tables *)
Open Scope Z_scope.

Definition zrange (a : Z) (k : nat) : list Z := map (fun i => a + Z.of_nat i) (seq 0 k).
Lemma In_zrange a k z : a <= z < a + Z.of_nat k -> In z (zrange a k).
Proof. intros H. apply in_map_iff. exists (Z.to_nat (z - a)). split; [lia|]. apply in_seq. lia. Qed.

Definition pack_check (s q : Z) (d : Z) (b : bool) : bool :=
  match pack_trans_ints s d q b with
  | Some byte => (0 <=? byte) && (byte <? 256) &&
    (let '(s', d', q', b') := unpack_trans_ints byte in (s' =? s) && (d' =? d) && (q' =? q) && Bool.eqb b' b)
  | None => false
  end.
(** all 256 cases *)
Lemma pack_check_all :
  forallb (fun s => forallb (fun q => forallb (fun d => pack_check s q d true && pack_check s q d false) [0; 1]) (zrange (-1) 8)) (zrange (-1) 8) = true.
Proof. vm_compute. reflexivity. Qed.

Lemma pack_ints_ok s q d b : -1 <= s < 7 -> -1 <= q < 7 -> d = 0 \/ d = 1 ->
  exists byte, pack_trans_ints s d q b = Some byte /\ 0 <= byte < 256 /\ unpack_trans_ints byte = (s, d, q, b).
Proof.
  intros Hs Hq Hd. pose proof pack_check_all as H.
  rewrite forallb_forall in H. specialize (H s (In_zrange (-1) 8 s ltac:(lia))). cbv beta in H.
  rewrite forallb_forall in H. specialize (H q (In_zrange (-1) 8 q ltac:(lia))). cbv beta in H.
  rewrite forallb_forall in H. specialize (H d ltac:(simpl; lia)). apply andb_true_iff in H. destruct H as (Ht & Hf).
  assert (H : pack_check s q d b = true) by (destruct b; auto). unfold pack_check in H.
  destruct (pack_trans_ints s d q b) as [byte|]; [|discriminate]. exists byte. split; auto.
  destruct (unpack_trans_ints byte) as [[[s' d'] q'] b']. rewrite !andb_true_iff in H.
  destruct H as ((H1 & H2) & (((H3 & H4) & H5) & H6)).
  apply Z.eqb_eq in H3, H4, H5. apply eqb_prop in H6. subst. split; [lia|auto].
Qed.

(** a cell that fits in a byte *)
Definition packable (t : transition nat sstate) : Prop :=
  t_cond t = UNDEFINED \/ ((t_sym t < 7)%nat /\ match t_state t with SRun q => (q < 7)%nat | SHalt => True end).

Lemma pack_trans_ok t b : packable t ->
  exists byte, pack_trans t b = Some byte /\ 0 <= byte < 256 /\
  exists s d q, unpack_trans_ints byte = (s, d, q, b) /\
    forall i j, (if 0 <=? s then [Quint i j (Some (Z.to_nat s)) (dir_of d) (state_of q)] else []) = cell_quints i j t.
Proof.
  intros H. unfold pack_trans, cell_quints. destruct H as [H|(Hs & Hq)].
  - rewrite H. destruct (pack_ints_ok (-1) (-1) 0 b) as (byte & E & Hb & Hu); try lia. exists byte. repeat split; auto; try lia.
    exists (-1), 0, (-1). split; auto.
  - assert (Hc : t_cond t = UNDEFINED \/ t_cond t <> UNDEFINED) by (destruct (t_cond t); auto; right; discriminate).
    destruct Hc as [Hc|Hc].
    + rewrite Hc. destruct (pack_ints_ok (-1) (-1) 0 b) as (byte & E & Hb & Hu); try lia. exists byte. repeat split; auto; try lia.
      exists (-1), 0, (-1). split; auto.
    + assert (Hz : -1 <= z_state (t_state t) < 7) by (unfold z_state; destruct (t_state t); lia).
      assert (Hd : z_dir (t_dir t) = 0 \/ z_dir (t_dir t) = 1) by (destruct (t_dir t); auto).
      destruct (pack_ints_ok (Z.of_nat (t_sym t)) (z_state (t_state t)) (z_dir (t_dir t)) b) as (byte & E & Hb & Hu); try lia.
      exists byte. split; [destruct (t_cond t); auto; congruence|]. split; auto.
      exists (Z.of_nat (t_sym t)), (z_dir (t_dir t)), (z_state (t_state t)). split; auto. intros i j.
      replace (0 <=? Z.of_nat (t_sym t)) with true by (symmetry; apply Z.leb_le; lia). rewrite Nat2Z.id.
      assert (E1 : dir_of (z_dir (t_dir t)) = t_dir t) by (destruct (t_dir t); reflexivity).
      assert (E2 : state_of (z_state (t_state t)) = t_state t).
      { unfold state_of, z_state. destruct (t_state t) as [q|]; auto.
        replace (Z.of_nat q <? 0) with false by (symmetry; apply Z.ltb_ge; lia). now rewrite Nat2Z.id. }
      rewrite E1, E2. destruct (t_cond t); auto; congruence.
Qed.

Fixpoint row_cells (i j : nat) (row : list (transition nat sstate)) : list quint :=
  match row with [] => [] | t :: row => cell_quints i j t ++ row_cells i (S j) row end.
Fixpoint all_cells (i : nat) (tab : ttable) : list quint :=
  match tab with [] => [] | row :: tab => row_cells i 0 row ++ all_cells (S i) tab end.

Lemma unpack_row i : forall row j rest qs, (0 < j)%nat -> Forall packable row ->
  exists bytes, otraverse (mapi_from (fun j t => pack_trans t (Nat.eqb j 0)) j row) = Some bytes /\
    Forall (fun b => 0 <= b < 256) bytes /\
    unpack_loop (bytes ++ rest) (Z.of_nat i) (Some j) qs = unpack_loop rest (Z.of_nat i) (Some (j + length row)%nat) (qs ++ row_cells i j row).
Proof.
  induction row as [|t row IH]; intros j rest qs Hj Hp.
  - exists []. simpl. rewrite Nat.add_0_r, app_nil_r. auto.
  - inversion Hp; subst. destruct (pack_trans_ok t false) as (byte & E & Hb & s & d & q & Hu & Hq); auto.
    destruct (IH (S j) rest (qs ++ cell_quints i j t)) as (bytes & Eb & Hbs & Hl); auto. exists (byte :: bytes). split; [|split].
    + cbn [mapi_from]. replace (Nat.eqb j 0) with false by (symmetry; apply Nat.eqb_neq; lia).
      cbn [otraverse]. rewrite E, Eb. reflexivity.
    + constructor; auto.
    + cbn [app unpack_loop]. rewrite Hu. rewrite <- (Hq i j) in Hl. rewrite Nat2Z.id.
      replace (if 0 <=? s then qs ++ [Quint i j (Some (Z.to_nat s)) (dir_of d) (state_of q)] else qs)
        with (qs ++ (if 0 <=? s then [Quint i j (Some (Z.to_nat s)) (dir_of d) (state_of q)] else []))
        by (destruct (0 <=? s); auto; apply app_nil_r).
      rewrite Hl. cbn [row_cells length]. rewrite <- app_assoc, (Hq i j). f_equal. f_equal. lia.
Qed.

Lemma otraverse_app {A} (x y : list (option A)) a b :
  otraverse x = Some a -> otraverse y = Some b -> otraverse (x ++ y) = Some (a ++ b).
Proof.
  revert a. induction x as [|[c|] x IH]; simpl; intros a Hx Hy; try discriminate.
  - injection Hx as <-. auto.
  - destruct (otraverse x) as [x'|]; [|discriminate]. injection Hx as <-. rewrite (IH x'); auto.
Qed.

Lemma unpack_rows m : (0 < m)%nat -> forall (tab : ttable) i sym qs,
  (forall row, In row tab -> length row = m /\ Forall packable row) ->
  exists bytes,
    otraverse (concat (map (fun row => mapi (fun j t => pack_trans t (Nat.eqb j 0)) row) tab)) = Some bytes /\
    Forall (fun b => 0 <= b < 256) bytes /\ length bytes = (length tab * m)%nat /\
    (tab <> [] -> unpack_loop bytes (Z.of_nat i - 1) sym qs = Some (qs ++ all_cells i tab, Z.of_nat i - 1 + Z.of_nat (length tab), m)).
Proof.
  intros Hm. induction tab as [|row tab IH]; intros i sym qs H.
  - exists []. repeat split; auto. congruence.
  - destruct (H row) as (Hl & Hp); [left; auto|]. destruct row as [|t row]; [simpl in Hl; lia|]. inversion Hp as [|? ? Ht Hrow]; subst.
    destruct (pack_trans_ok t true) as (byte & E & Hb & s & d & q & Hu & Hq); auto.
    destruct (IH (S i) (Some (length (t :: row))) (qs ++ row_cells i 0 (t :: row))) as (bytes2 & E2 & Hb2 & Hl2 & Hu2); [intros; apply H; now right|].
    destruct (unpack_row i row 1%nat bytes2 (qs ++ cell_quints i 0 t)) as (bytes1 & E1 & Hb1 & Hu1); auto.
    assert (Hl1 : length bytes1 = length row) by (rewrite (otraverse_length _ _ E1); apply mapi_from_length).
    exists ((byte :: bytes1) ++ bytes2). split; [|split; [|split]].
    + cbn [map concat]. apply otraverse_app; auto. unfold mapi. cbn [mapi_from otraverse Nat.eqb]. rewrite E, E1. reflexivity.
    + cbn [app]. constructor; auto. apply Forall_app. auto.
    + rewrite app_length. cbn [length]. rewrite Hl1, Hl2. cbn [length]. lia.
    + intros _. cbn [app unpack_loop]. rewrite Hu. replace (Z.of_nat i - 1 + 1) with (Z.of_nat i) by lia. rewrite Nat2Z.id.
      replace (if 0 <=? s then qs ++ [Quint i 0 (Some (Z.to_nat s)) (dir_of d) (state_of q)] else qs)
        with (qs ++ (if 0 <=? s then [Quint i 0 (Some (Z.to_nat s)) (dir_of d) (state_of q)] else []))
        by (destruct (0 <=? s); auto; apply app_nil_r).
      rewrite (Hq i 0%nat), Hu1. cbn [all_cells row_cells length] in *. destruct tab as [|row2 tab].
      * destruct bytes2; [|discriminate Hl2]. cbn [unpack_loop all_cells]. rewrite app_nil_r, <- app_assoc. f_equal.
        f_equal. f_equal. simpl length. lia.
      * replace (Z.of_nat i) with (Z.of_nat (S i) - 1) by lia. rewrite <- app_assoc. cbn [Nat.add].
        rewrite Hu2 by discriminate. rewrite !app_assoc. f_equal. f_equal. f_equal. lia.
Qed.

Lemma In_row_cells q i : forall row j, In q (row_cells i j row) <-> exists k t, nth_error row k = Some t /\ In q (cell_quints i (j + k) t).
Proof.
  induction row as [|t row IH]; intros j; simpl.
  - split; [tauto|]. intros ([|k] & t & H & _); discriminate.
  - rewrite in_app_iff, IH. split.
    + intros [H|(k & t' & H & Hq)]; [exists 0%nat, t; rewrite Nat.add_0_r; auto|exists (S k), t'; rewrite Nat.add_succ_r; auto].
    + intros ([|k] & t' & H & Hq); [injection H as ->; rewrite Nat.add_0_r in Hq; auto|right; exists k, t'; rewrite Nat.add_succ_r in Hq; auto].
Qed.
Lemma In_all_cells q : forall tab i, In q (all_cells i tab) <-> exists k j t, cell tab k j = Some t /\ In q (cell_quints (i + k) j t).
Proof.
  induction tab as [|row tab IH]; intros i; simpl.
  - split; [tauto|]. intros ([|k] & j & t & H & _); discriminate.
  - rewrite in_app_iff, IH, In_row_cells. split.
    + intros [(j & t & H & Hq)|(k & j & t & H & Hq)].
      * exists 0%nat, j, t. rewrite Nat.add_0_r. auto.
      * exists (S k), j, t. rewrite Nat.add_succ_r. auto.
    + intros ([|k] & j & t & H & Hq).
      * left. exists j, t. rewrite Nat.add_0_r in Hq. auto.
      * right. exists k, j, t. rewrite Nat.add_succ_r in Hq. auto.
Qed.

Theorem pack_roundtrip n m tab :
  std_table n m tab -> (0 < n)%nat -> (0 < m)%nat -> (forall i j t, cell tab i j = Some t -> packable t) ->
  exists bytes, pack_tm tab n m = Some bytes /\ length bytes = (n * m)%nat /\ Forall (fun b => 0 <= b < 256) bytes /\
    unpack_tm bytes = Some (tab, n, m).
Proof.
  intros Hstd Hn Hm Hp. pose proof Hstd as ((Hl & Hr) & Hs).
  destruct (unpack_rows m Hm tab 0%nat None []) as (bytes & E & Hb & Hlen & Hu).
  { intros row Hrow. split; auto. apply Forall_forall. intros t Ht.
    destruct (In_row_cell n m tab row t (conj Hl Hr) Hrow Ht) as (i & j & Hc). eauto. }
  unfold ttable, trans_row in *. rewrite Hl in Hlen. exists bytes. split; [|split; [|split]]; auto.
  - unfold pack_tm, ttable, trans_row. rewrite E, Hlen, Nat.ltb_irrefl, Nat.sub_diag. simpl. now rewrite app_nil_r.
  - unfold unpack_tm. change (-1) with (Z.of_nat 0 - 1). rewrite Hu by (destruct tab; simpl in *; [lia|discriminate]). rewrite Hl.
    replace (Z.to_nat (Z.of_nat 0 - 1 + Z.of_nat n + 1)) with n by lia. rewrite (rebuild n m tab); auto.
    intros q. cbn [app]. rewrite In_all_cells. reflexivity.
Qed.

(** a symbol or a state that does not fit makes packing fail *)
Lemma pack_tm_fails n m tab i j t :
  cell tab i j = Some t -> t_cond t <> UNDEFINED ->
  (7 <= t_sym t)%nat \/ match t_state t with SRun q => (7 <= q)%nat | SHalt => False end -> pack_tm tab n m = None.
Proof.
  intros Hc Hu Hbig. unfold pack_tm. rewrite otraverse_none; auto. unfold cell in Hc.
  destruct (nth_error tab i) as [row|] eqn:E; [|discriminate]. apply in_concat.
  exists (mapi (fun j t => pack_trans t (Nat.eqb j 0)) row). split.
  - apply in_map_iff. exists row. split; auto. eapply nth_error_In; eauto.
  - apply In_mapi. exists j, t. split; auto. symmetry. unfold pack_trans.
    replace (match t_cond t with UNDEFINED => pack_trans_ints (-1) 0 (-1) (Nat.eqb j 0) | _ => pack_trans_ints (Z.of_nat (t_sym t)) (z_dir (t_dir t)) (z_state (t_state t)) (Nat.eqb j 0) end)
      with (pack_trans_ints (Z.of_nat (t_sym t)) (z_dir (t_dir t)) (z_state (t_state t)) (Nat.eqb j 0)) by (destruct (t_cond t); auto; congruence).
    unfold pack_trans_ints. destruct Hbig as [H|H].
    + replace (Z.of_nat (t_sym t) <? 7) with false by (symmetry; apply Z.ltb_ge; lia). now rewrite andb_false_r.
    + destruct (t_state t) as [q|]; [|contradiction]. cbn [z_state].
      replace (Z.of_nat q <? 7) with false by (symmetry; apply Z.ltb_ge; lia). now rewrite !andb_false_r.
Qed.

(** ** Tables as lists *)

Lemma In_pairs n m a : In a (list_prod (seq 0 n) (seq 0 m)) <-> (fst a < n)%nat /\ (snd a < m)%nat.
Proof. destruct a as [i j]. rewrite in_prod_iff, !in_seq. simpl. lia. Qed.

Lemma simple_trans_cell tab i j : simple_trans tab j (SRun i) = cell tab i j.
Proof. reflexivity. Qed.

Lemma tm_to_list_ok n m tab : rect n m tab ->
  exists l, tm_to_list tab n m = Some (TMList n m (concat l)) /\
    map Some l = map (fun a => option_map list_cell (cell tab (fst a) (snd a))) (list_prod (seq 0 n) (seq 0 m)).
Proof.
  intros Hr. unfold tm_to_list.
  destruct (otraverse_all (map (fun a => option_map list_cell (simple_trans tab (snd a) (SRun (fst a)))) (list_prod (seq 0 n) (seq 0 m)))) as (l & E).
  { intros x Hx. apply in_map_iff in Hx. destruct Hx as (a & <- & Ha). apply In_pairs in Ha.
    rewrite simple_trans_cell. destruct (rect_cell n m tab (fst a) (snd a) Hr) as (t & ->); try tauto. discriminate. }
  rewrite E. exists l. split; auto. clear -E. revert l E. generalize (list_prod (seq 0 n) (seq 0 m)). induction l as [|a l IH]; simpl; intros r E.
  - injection E as <-. reflexivity.
  - change (cell tab (fst a) (snd a)) with (simple_trans tab (snd a) (SRun (fst a))).
    destruct (simple_trans tab (snd a) (SRun (fst a))) as [t|]; simpl in *; [|discriminate].
    destruct (otraverse _) as [r'|] eqn:E'; [|discriminate]. injection E as <-. simpl. now rewrite (IH r').
Qed.

Lemma list_cell_inj n m i j t u : std_cell n m i j t -> std_cell n m i j u -> list_cell t = list_cell u -> t = u.
Proof.
  intros Ht Hu. destruct Ht as [|w d Hw|w d q Hw Hq], Hu as [|w' d' Hw'|w' d' q' Hw' Hq']; unfold list_cell; simpl; intros E; auto;
    injection E as E1 E2; try lia; destruct d, d'; simpl in E2; try discriminate; repeat f_equal; lia.
Qed.

Lemma concat3_inj (x y : list (list Z)) :
  (forall c, In c x -> length c = 3%nat) -> (forall c, In c y -> length c = 3%nat) -> length x = length y -> concat x = concat y -> x = y.
Proof.
  revert y. induction x as [|a x IH]; destruct y as [|b y]; simpl; intros Hx Hy Hl E; try discriminate; auto.
  assert (Ha := Hx a (or_introl eq_refl)). assert (Hb := Hy b (or_introl eq_refl)).
  destruct a as [|a1 [|a2 [|a3 [|? ?]]]]; simpl in Ha; try lia. destruct b as [|b1 [|b2 [|b3 [|? ?]]]]; simpl in Hb; try lia.
  simpl in E. injection E as -> -> -> E. f_equal. apply IH; auto.
Qed.

Lemma map_Some_len (l : list (list Z)) n m tab :
  map Some l = map (fun a => option_map list_cell (cell tab (fst a) (snd a))) (list_prod (seq 0 n) (seq 0 m)) ->
  (forall c, In c l -> length c = 3%nat) /\ length l = length (list_prod (seq 0 n) (seq 0 m)).
Proof.
  intros H. split.
  - intros c Hc. assert (Hs : In (Some c) (map Some l)) by (now apply in_map). rewrite H in Hs.
    apply in_map_iff in Hs. destruct Hs as (a & E & _). destruct (cell tab (fst a) (snd a)); simpl in E; [|discriminate]. injection E as <-. reflexivity.
  - apply (f_equal (@length _)) in H. rewrite !map_length in H. exact H.
Qed.

Theorem tm_to_list_inj n m tab tab' :
  std_table n m tab -> std_table n m tab' -> tm_to_list tab n m = tm_to_list tab' n m -> tab = tab'.
Proof.
  intros (Hr & Hs) (Hr' & Hs') E.
  destruct (tm_to_list_ok n m tab Hr) as (l & E1 & M1). destruct (tm_to_list_ok n m tab' Hr') as (l' & E2 & M2).
  rewrite E1, E2 in E. injection E as E.
  destruct (map_Some_len _ _ _ _ M1) as (L1 & N1). destruct (map_Some_len _ _ _ _ M2) as (L2 & N2).
  apply concat3_inj in E; [|auto|auto|congruence]. subst l'. rewrite M1 in M2.
  apply (rect_ext n m); auto. intros i j Hi Hj.
  assert (Heq : option_map list_cell (cell tab i j) = option_map list_cell (cell tab' i j)).
  { apply (ext_in_map M2 (i, j)). apply In_pairs. auto. }
  destruct (rect_cell n m tab i j Hr Hi Hj) as (t & Ht). destruct (rect_cell n m tab' i j Hr' Hi Hj) as (u & Hu).
  unfold ttable, trans_row in *. rewrite Ht, Hu in *. injection Heq as E3 E4 E5. f_equal. eapply list_cell_inj; eauto.
  unfold list_cell. congruence.
Qed.

(** the reader gives every cell the contents of the first one *)
Definition relocate (i j : nat) (t : transition nat sstate) : transition nat sstate :=
  match t_cond t with
  | UNDEFINED => undefined_trans j i
  | HALT => Trans HALT [DCell j i] (t_sym t) SHalt (t_dir t) 1 [(i, 0%nat)]
  | c => Trans c [] (t_sym t) (t_state t) (t_dir t) 1 [(i, 0%nat)]
  end.

Lemma firstn3 (l : list Z) : forall r, length l = 3%nat -> firstn 3 (l ++ r) = l.
Proof. intros r H. destruct l as [|a [|b [|c [|? ?]]]]; simpl in H; try lia. reflexivity. Qed.

Theorem list_reads_first n m tab l t00 :
  std_table n m tab -> (0 < n)%nat -> (0 < m)%nat -> tm_to_list tab n m = Some l -> cell tab 0 0 = Some t00 ->
  exists tab', tm_from_list l = Some (tab', n, m) /\ rect n m tab' /\
    forall i j, (i < n)%nat -> (j < m)%nat -> cell tab' i j = Some (relocate i j t00).
Proof.
  intros (Hr & Hs) Hn Hm E H0. destruct (tm_to_list_ok n m tab Hr) as (ls & E1 & M1). rewrite E1 in E. injection E as <-.
  assert (Hhd : exists r, ls = list_cell t00 :: r).
  { destruct n as [|n']; [lia|]. destruct m as [|m']; [lia|]. simpl in M1. rewrite H0 in M1. destruct ls as [|a ls]; [discriminate|].
    injection M1 as -> _. eauto. }
  destruct Hhd as (r & ->).
  assert (Hq : forall a, list_quint (concat (list_cell t00 :: r)) 0 a = Some (cell_quints (fst a) (snd a) t00)).
  { intros a. unfold list_quint. cbn [skipn concat]. rewrite firstn3 by reflexivity. unfold list_cell, cell_quints.
    specialize (Hs 0%nat 0%nat t00 H0). destruct Hs as [|w d Hw|w d q Hw Hq].
    - reflexivity.
    - cbn [t_cond t_sym t_dir t_state z_state]. replace (Z.of_nat w =? -1) with false by (symmetry; apply Z.eqb_neq; lia).
      rewrite Nat2Z.id. destruct d; reflexivity.
    - cbn [t_cond t_sym t_dir t_state z_state]. replace (Z.of_nat w =? -1) with false by (symmetry; apply Z.eqb_neq; lia).
      rewrite Nat2Z.id. unfold state_of. replace (Z.of_nat q <? 0) with false by (symmetry; apply Z.ltb_ge; lia). rewrite Nat2Z.id. destruct d; reflexivity. }
  set (tab' := map (fun i => map (fun j => relocate i j t00) (seq 0 m)) (seq 0 n)).
  assert (Hc' : forall i j, cell tab' i j = if (Nat.ltb i n && Nat.ltb j m)%bool then Some (relocate i j t00) else None).
  { assert (Hseq : forall k x, nth_error (seq 0 k) x = if Nat.ltb x k then Some x else None).
    { intros k x. destruct (Nat.ltb_spec x k) as [Hlt|Hge].
      - rewrite (nth_error_nth' _ 0%nat) by (rewrite seq_length; auto). now rewrite seq_nth.
      - apply nth_error_None. rewrite seq_length. auto. }
    intros i j. unfold cell, tab'. rewrite nth_error_map, Hseq. destruct (Nat.ltb i n); simpl; auto.
    rewrite nth_error_map, Hseq. destruct (Nat.ltb j m); auto. }
  assert (Hr' : rect n m tab').
  { split; [unfold tab'; now rewrite map_length, seq_length|]. intros row H. unfold tab' in H. apply in_map_iff in H.
    destruct H as (i & <- & _). now rewrite map_length, seq_length. }
  pose proof (Hs 0%nat 0%nat t00 H0) as Hs0.
  assert (Hstd' : std_table n m tab').
  { split; auto. intros i j t Ht. rewrite Hc' in Ht. destruct (Nat.ltb i n && Nat.ltb j m)%bool; [|discriminate]. injection Ht as <-.
    destruct Hs0; constructor; auto. }
  exists tab'. split; [|split]; auto.
  2:{ intros i j Hi Hj. rewrite Hc'. apply Nat.ltb_lt in Hi, Hj. now rewrite Hi, Hj. }
  unfold tm_from_list. cbn [l_table l_states l_symbols].
  rewrite (otraverse_map _ (fun a => cell_quints (fst a) (snd a) t00)) by (intros; apply Hq).
  rewrite (rebuild n m tab'); auto. intros q. rewrite in_concat. split.
  - intros (x & Hx & Hin). apply in_map_iff in Hx. destruct Hx as ([i j] & <- & Ha). apply In_pairs in Ha. simpl in Ha, Hin.
    exists i, j, (relocate i j t00). rewrite Hc'. destruct Ha as (Hi & Hj). apply Nat.ltb_lt in Hi, Hj. rewrite Hi, Hj. split; auto.
    destruct Hs0; auto.
  - intros (i & j & t & Hc & Hin). rewrite Hc' in Hc. destruct (Nat.ltb i n && Nat.ltb j m)%bool eqn:Eb; [|discriminate]. injection Hc as <-.
    apply andb_true_iff in Eb. destruct Eb as (Hi & Hj). apply Nat.ltb_lt in Hi, Hj.
    exists (cell_quints i j t00). split; [|destruct Hs0; auto]. apply in_map_iff. exists (i, j). split; auto. apply In_pairs. auto.
Qed.

(** ** Text files *)
Open Scope nat_scope.

(** at most 7 states and 8 symbols are packed, with three bits for -1 .. 6 *)
Definition storable (n m : nat) (tab : ttable) : Prop :=
  n <= 7 -> m = 8 -> forall i j t, cell tab i j = Some t -> t_cond t = UNDEFINED \/ t_sym t < 7.
Lemma write_tm_total n m tab : std_table n m tab -> 0 < n -> 0 < m ->
  storable n m tab <-> exists p, write_tm tab n m = Some p.
Proof.
  intros Hstd Hn Hm. unfold write_tm. destruct (Nat.leb n 7 && Nat.leb m 8)%bool eqn:Es.
  - apply andb_true_iff in Es. destruct Es as (E1 & E2). apply Nat.leb_le in E1, E2. split.
    + intros Hst. destruct (pack_roundtrip n m tab) as (bytes & -> & _); [auto|auto|auto| |eexists; reflexivity].
      intros i j t Ht. pose proof (proj2 Hstd _ _ _ Ht) as Hs. destruct (Nat.eq_dec m 8) as [->|Hm8].
      * destruct (Hst E1 eq_refl _ _ _ Ht) as [Hu|Hw]; [left; auto|]. right. split; auto. destruct Hs; simpl; auto. lia.
      * unfold packable. destruct Hs; simpl; [auto|right; split; [lia|auto]|right; lia].
    + intros (p & E) _ _ i j t Ht. destruct (t_cond t) eqn:Ec; auto; right;
        (destruct (Nat.lt_ge_cases (t_sym t) 7); auto; rewrite (pack_tm_fails n m tab i j t) in E; [discriminate|auto|congruence|lia]).
  - split.
    + intros _. destruct (tm_to_list_ok n m tab (proj1 Hstd)) as (l & -> & _). eexists. reflexivity.
    + intros _ H7 H8. apply andb_false_iff in Es. destruct Es as [E|E]; apply Nat.leb_gt in E; lia.
Qed.

(** the numbers a halting record carries contain no line feed *)
Definition no_newline (s : str) : Prop := forall c, In c s -> Ascii.eqb c "010" = false.
Definition entry := (ttable * nat * nat * option (str * str))%type.
Definition entry_ok (e : entry) : Prop :=
  let '(tab, n, m, halt) := e in
  std_table n m tab /\ 0 < n < 25 /\ 0 < m < 10 /\ storable n m tab /\
  match halt with Some (a, b) => no_newline a /\ no_newline b | None => True end.
Definition write_entry (e : entry) : option str := let '(tab, n, m, halt) := e in write_text tab n m halt.

Lemma read_entry e s rest : entry_ok e -> write_entry e = Some s ->
  read_text (s ++ rest) = Some (Some (fst e), rest).
Proof.
  destruct e as [[[tab n] m] halt]. intros (Hstd & Hn & Hm & Hst & Hh) Hw. unfold write_entry, write_text in Hw.
  rewrite (print_std n m tab Hstd) in Hw by lia.
  apply (f_equal (fun o => match o with Some x => x | None => [] end)) in Hw. cbv beta iota in Hw. subst s.
  set (h := match halt with Some (steps, score) => [" "; "H"; "a"; "l"; "t"; " "]%char ++ steps ++ " "%char :: score | None => [] end).
  assert (Hsp := text_no_space n m tab Hstd (proj2 Hn) (proj2 Hm)).
  assert (Hnl : no_newline (table_text tab ++ h)).
  { intros c Hc. apply in_app_iff in Hc. destruct Hc as [Hc|Hc].
    - apply Hsp in Hc. destruct (Ascii.eqb_spec c "010"); auto. subst. discriminate.
    - unfold h in Hc. destruct halt as [[a b]|]; [|destruct Hc]. apply in_app_iff in Hc. destruct Hc as [Hc|Hc].
      + cbn [In] in Hc. repeat (destruct Hc as [<- |Hc]; [reflexivity|]). destruct Hc.
      + apply in_app_iff in Hc. destruct Hc as [Hc|[<- |Hc]]; [exact (proj1 Hh c Hc)|reflexivity|exact (proj2 Hh c Hc)]. }
  unfold read_text.
  assert (Erl : readline ((table_text tab ++ h ++ ["010"%char]) ++ rest) = ((table_text tab ++ h) ++ ["010"%char], rest)).
  { rewrite <- (readline_app _ rest Hnl). f_equal. rewrite <- !app_assoc. reflexivity. }
  rewrite Erl. cbv beta iota.
  assert (Hr : exists c0 r, h ++ ["010"%char] = c0 :: r /\ is_space c0 = true).
  { unfold h. destruct halt as [[a b]|]; simpl; eauto. }
  destruct Hr as (c0 & r & Hr & Hc0). rewrite <- app_assoc, Hr.
  destruct (first_word_strip (table_text tab) c0 r) as (Hne & Hw); auto.
  { eapply table_text_nonempty; [apply Hstd| |]; lia. }
  destruct (strip (table_text tab ++ c0 :: r)) as [|c l] eqn:E; [congruence|]. rewrite Hw.
  rewrite (parse_table_text n m tab Hstd) by lia.
  destruct (proj1 (write_tm_total n m tab Hstd (proj1 Hn) (proj1 Hm)) Hst) as (p & ->). reflexivity.
Qed.

Theorem read_entries es : forall s fuel,
  Forall entry_ok es -> otraverse (map write_entry es) = Some s -> length es < fuel ->
  read_texts fuel (concat s) = Some (map fst es).
Proof.
  induction es as [|e es IH]; intros s fuel Hok Hw Hf; (destruct fuel as [|fuel]; [simpl in Hf; lia|]).
  - injection Hw as <-. reflexivity.
  - inversion Hok; subst. simpl in Hw. destruct (write_entry e) as [se|] eqn:Ee; [|discriminate].
    destruct (otraverse (map write_entry es)) as [s'|] eqn:Es; [|discriminate]. injection Hw as <-.
    cbn [concat read_texts]. rewrite (read_entry e se) by auto. rewrite (IH s' fuel); auto. simpl in Hf. lia.
Qed.
Lemma write_entry_ok e : entry_ok e -> exists s, write_entry e = Some s.
Proof.
  destruct e as [[[tab n] m] halt]. intros (Hstd & Hn & Hm & _). simpl. unfold write_text.
  rewrite (print_std n m tab Hstd) by lia. eauto.
Qed.
Lemma read_text_stores s tab n m rest : read_text s = Some (Some (tab, n, m), rest) -> exists p, write_tm tab n m = Some p.
Proof.
  unfold read_text. destruct (readline s) as (line & r). destruct (strip line) as [|c l]; [discriminate|].
  destruct (parse_tm (first_word (c :: l))) as [[[tab' n'] m']|]; [|discriminate].
  destruct (write_tm tab' n' m') as [p|] eqn:E; [|discriminate]. intros H. injection H as -> -> -> _. eauto.
Qed.
