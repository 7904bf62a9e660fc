(** * Proofs about the readers and writers of machines *)
Require Import ZArith List Lia Bool Arith Ascii.
From Verif Require Import Spec_TM M_Turing_Machine P_Stream P_Macro P_Quint M_IO.
Import ListNotations.
Open Scope nat_scope.

(** ** Tables as they are built by the readers *)

(** what a table of [n] states and [m] symbols can hold at state [i] and symbol [j] *)
Inductive std_cell (n m i j : nat) : transition nat sstate -> Prop :=
| std_undef : std_cell n m i j (undefined_trans j i)
| std_halt w d : w < m -> std_cell n m i j (Trans HALT [DCell j i] w SHalt d 1 [(i, 0)])
| std_run w d q : w < m -> q < n -> std_cell n m i j (Trans RUNNING [] w (SRun q) d 1 [(i, 0)]).

Definition std_table (n m : nat) (tab : ttable) : Prop :=
  rect n m tab /\ forall i j t, cell tab i j = Some t -> std_cell n m i j t.

Lemma cell_bounds {A} n m (t : list (list A)) i j x : rect n m t -> cell t i j = Some x -> i < n /\ j < m.
Proof.
  intros (Hl & Hr). unfold cell. destruct (nth_error t i) as [row|] eqn:E; [|discriminate]. intros H.
  split; [rewrite <- Hl; apply nth_error_Some; congruence|].
  rewrite <- (Hr row) by (eapply nth_error_In; eauto). apply nth_error_Some. congruence.
Qed.

Lemma list_ext {A} (x y : list A) : length x = length y -> (forall i, i < length x -> nth_error x i = nth_error y i) -> x = y.
Proof.
  revert y. induction x as [|a x IH]; destruct y as [|b y]; simpl; intros Hl H; try discriminate; auto.
  f_equal; [specialize (H 0 ltac:(lia)); simpl in H; congruence|]. apply IH; [lia|].
  intros i Hi. exact (H (S i) ltac:(lia)).
Qed.

Lemma rect_ext {A} n m (t u : list (list A)) :
  rect n m t -> rect n m u -> (forall i j, i < n -> j < m -> cell t i j = cell u i j) -> t = u.
Proof.
  intros (Hl & Hr) (Hl' & Hr') H. apply list_ext; [congruence|]. intros i Hi.
  destruct (nth_error t i) as [r|] eqn:E; [|apply nth_error_None in E; lia].
  destruct (nth_error u i) as [r'|] eqn:E'; [|apply nth_error_None in E'; lia].
  f_equal. pose proof (Hr r (nth_error_In _ _ E)). pose proof (Hr' r' (nth_error_In _ _ E')).
  apply list_ext; [congruence|]. intros j Hj. specialize (H i j ltac:(lia) ltac:(lia)).
  unfold cell in H. now rewrite E, E' in H.
Qed.

Lemma fill_rect n m t : rect n m t -> rect n m (fill_undefined t).
Proof.
  intros (Hl & Hr). unfold fill_undefined, mapi. split; [now rewrite mapi_from_length|].
  intros row H. apply In_nth_error in H. destruct H as (i & H). rewrite nth_error_mapi_from in H.
  destruct (nth_error t i) as [r|] eqn:Er; simpl in H; [|discriminate]. injection H as <-.
  rewrite mapi_from_length. apply Hr. eapply nth_error_In; eauto.
Qed.

Lemma quintuples_rect qs n m tab : tm_from_quintuples qs n m = Some tab -> rect n m tab /\ Forall (row_in_range n m) qs.
Proof.
  unfold tm_from_quintuples. intros E.
  destruct (add_quints n m (repeat (repeat None m) n) qs) as [t|] eqn:Ea; [|discriminate].
  destruct (add_quints_spec n m qs _ _ (rect_blank n m None) Ea) as (Hr & Hq & _).
  injection E as <-. split; auto. now apply fill_rect.
Qed.

Theorem quintuples_std qs n m tab : tm_from_quintuples qs n m = Some tab -> std_table n m tab.
Proof.
  intros E. destruct (quintuples_rect _ _ _ _ E) as (Hr & Hq). split; auto.
  intros i j t Ht. destruct (cell_bounds _ _ _ _ _ _ Hr Ht) as (Hi & Hj).
  pose proof (quintuples_cells qs n m tab i j E Hi Hj) as Hc. unfold ttable, trans_row in *. rewrite Ht in Hc. injection Hc as ->.
  destruct (last_row qs i j) as [q|] eqn:El; [|constructor].
  apply last_row_spec in El. destruct El as (Hin & <- & <- & Ho). rewrite Forall_forall in Hq. specialize (Hq q Hin).
  unfold row_in_range, row_trans in *. destruct (q_symbol_out q) as [w|]; [|congruence].
  destruct Hq as (H1 & H2 & H3 & H4). destruct (q_state_out q); constructor; auto.
Qed.

(** the rows that make a cell *)
Definition cell_quints (i j : nat) (t : transition nat sstate) : list quint :=
  match t_cond t with UNDEFINED => [] | _ => [Quint i j (Some (t_sym t)) (t_dir t) (t_state t)] end.

(** any list with these rows, in any order, makes the table *)
Theorem rebuild n m tab qs :
  std_table n m tab ->
  (forall q, In q qs <-> exists i j t, cell tab i j = Some t /\ In q (cell_quints i j t)) ->
  tm_from_quintuples qs n m = Some tab.
Proof.
  intros (Hr & Hs) Hin.
  assert (Hq : Forall (row_in_range n m) qs).
  { apply Forall_forall. intros q H. apply Hin in H. destruct H as (i & j & t & Hc & H).
    destruct (cell_bounds _ _ _ _ _ _ Hr Hc) as (Hi & Hj). pose proof (Hs _ _ _ Hc) as Hsc.
    destruct Hsc; simpl in H; destruct H as [<-|[]] || destruct H; unfold row_in_range; simpl; auto. }
  apply quintuples_accepts in Hq. destruct (tm_from_quintuples qs n m) as [u|] eqn:E; [|congruence].
  destruct (quintuples_rect _ _ _ _ E) as (Hru & _). f_equal. apply (rect_ext n m); auto. intros i j Hi Hj.
  rewrite (quintuples_cells _ _ _ _ i j E Hi Hj). destruct (rect_cell _ _ _ i j Hr Hi Hj) as (t & Ht).
  unfold ttable, trans_row in *. rewrite Ht. f_equal. pose proof (Hs _ _ _ Ht) as Hsc. destruct (last_row qs i j) as [q|] eqn:El.
  - apply last_row_spec in El. destruct El as (Hq0 & Hqi & Hqj & _). apply Hin in Hq0.
    destruct Hq0 as (i' & j' & t' & Hc & Hq0). pose proof (Hs _ _ _ Hc) as Hsc'.
    destruct Hsc'; simpl in Hq0; destruct Hq0 as [<-|[]] || destruct Hq0; simpl in Hqi, Hqj; subst; rewrite Hc in Ht; injection Ht as <-; reflexivity.
  - destruct Hsc; [reflexivity| |]; exfalso;
      (match type of Ht with _ = Some ?t => assert (Hx : exists q, In q (cell_quints i j t) /\ row_for i j q = true) end;
       [eexists; split; [left; reflexivity|]; unfold row_for; simpl; now rewrite !Nat.eqb_refl|]);
      destruct Hx as (q1 & Hq1 & Hf); assert (Hq' : In q1 qs) by (apply Hin; eauto 6);
      apply in_rev in Hq'; unfold last_row in El; pose proof (find_none _ _ El q1 Hq'); congruence.
Qed.

(** ** Lists *)

Lemma otraverse_some {A} (l : list A) : otraverse (map Some l) = Some l.
Proof. induction l as [|a l IH]; simpl; auto. now rewrite IH. Qed.

Lemma otraverse_map {A B} (f : A -> option B) (g : A -> B) l :
  (forall x, In x l -> f x = Some (g x)) -> otraverse (map f l) = Some (map g l).
Proof.
  induction l as [|a l IH]; simpl; intros H; auto. rewrite (H a) by auto. now rewrite IH by auto.
Qed.

Lemma otraverse_length {A} (l : list (option A)) r : otraverse l = Some r -> length r = length l.
Proof.
  revert r. induction l as [|[a|] l IH]; simpl; intros r H; try discriminate; [injection H as <-; auto|].
  destruct (otraverse l); [|discriminate]. injection H as <-. simpl. now rewrite (IH l0).
Qed.

Lemma otraverse_nth {A} (l : list (option A)) r i : otraverse l = Some r -> nth_error l i = option_map Some (nth_error r i).
Proof.
  revert r i. induction l as [|[a|] l IH]; simpl; intros r i H; try discriminate.
  - injection H as <-. now destruct i.
  - destruct (otraverse l) as [r'|]; [|discriminate]. injection H as <-. destruct i; simpl; auto.
Qed.

Lemma otraverse_all {A} (l : list (option A)) : (forall x, In x l -> x <> None) -> exists r, otraverse l = Some r.
Proof.
  induction l as [|[a|] l IH]; simpl; intros H; eauto.
  - destruct IH as (r & ->); eauto.
  - exfalso. apply (H None); auto.
Qed.

Lemma otraverse_In {A} (l : list (option A)) r a : otraverse l = Some r -> In a r <-> In (Some a) l.
Proof.
  revert r. induction l as [|[b|] l IH]; simpl; intros r H; try discriminate.
  - injection H as <-. tauto.
  - destruct (otraverse l) as [r'|]; [|discriminate]. injection H as <-. simpl. rewrite (IH r' eq_refl).
    split; intros [H|H]; auto; left; congruence.
Qed.

Lemma otraverse_none {A} (l : list (option A)) : In None l -> otraverse l = None.
Proof.
  induction l as [|[a|] l IH]; simpl; intros H; auto; [destruct H|]. destruct H as [H|H]; [discriminate|]. now rewrite IH.
Qed.

Lemma In_mapi {A B} (f : nat -> A -> B) l b : In b (mapi f l) <-> exists i a, nth_error l i = Some a /\ b = f i a.
Proof.
  unfold mapi. split.
  - intros H. apply In_nth_error in H. destruct H as (i & H). rewrite nth_error_mapi_from in H. simpl in H.
    destruct (nth_error l i) as [a|] eqn:E; simpl in H; [|discriminate]. injection H as <-. eauto.
  - intros (i & a & H & ->). apply nth_error_In with i. rewrite nth_error_mapi_from. simpl. now rewrite H.
Qed.

(** the entries of a list of rows, with their places *)
Lemma In_grid {A B} (f : nat -> nat -> A -> B) rows b :
  In b (concat (mapi (fun i row => mapi (fun j t => f i j t) row) rows)) <->
  exists i j t, cell rows i j = Some t /\ b = f i j t.
Proof.
  rewrite in_concat. split.
  - intros (l & Hl & Hb). apply In_mapi in Hl. destruct Hl as (i & row & Hi & ->). apply In_mapi in Hb.
    destruct Hb as (j & t & Hj & ->). exists i, j, t. unfold cell. now rewrite Hi.
  - intros (i & j & t & H & ->). unfold cell in H. destruct (nth_error rows i) as [row|] eqn:E; [|discriminate].
    exists (mapi (fun j t => f i j t) row). split; apply In_mapi; eauto.
Qed.

Lemma row_quints_spec {A} (f : nat -> nat -> A -> option (list quint)) rows qs :
  row_quints f rows = Some qs ->
  (forall i j t, cell rows i j = Some t -> f i j t <> None) /\
  (forall q, In q qs <-> exists i j t l, cell rows i j = Some t /\ f i j t = Some l /\ In q l).
Proof.
  unfold row_quints. intros H.
  destruct (otraverse _) as [ls|] eqn:E; simpl in H; [|discriminate]. injection H as <-. split.
  - intros i j t Hc Hn. rewrite otraverse_none in E; [discriminate|]. apply In_grid. exists i, j, t. auto.
  - intros q. rewrite in_concat. split.
    + intros (l & Hl & Hq). apply (otraverse_In _ _ _ E) in Hl. apply In_grid in Hl.
      destruct Hl as (i & j & t & Hc & Hl). exists i, j, t, l. auto.
    + intros (i & j & t & l & Hc & Hl & Hq). exists l. split; auto. apply (otraverse_In _ _ _ E).
      apply In_grid. exists i, j, t. auto.
Qed.

Lemma row_quints_total {A} (f : nat -> nat -> A -> option (list quint)) rows :
  (forall i j t, cell rows i j = Some t -> f i j t <> None) -> row_quints f rows <> None.
Proof.
  intros H. unfold row_quints.
  destruct (otraverse_all (concat (mapi (fun i row => mapi (fun j t => f i j t) row) rows))) as (r & ->); [|discriminate].
  intros x Hx. apply In_grid in Hx. destruct Hx as (i & j & t & Hc & ->). eauto.
Qed.

(** ** Text *)

Lemma nat_ascii k : k < 256 -> nat_of_ascii (ascii_of_nat k) = k.
Proof. apply nat_ascii_embedding. Qed.

Lemma find_digit_spec c k : find_digit c = Some k <-> k < 10 /\ c = digit k.
Proof.
  unfold find_digit, in_range_code, digit. split.
  - destruct (Nat.leb 48 (nat_of_ascii c) && Nat.ltb (nat_of_ascii c) (48 + 10))%bool eqn:E; [|discriminate].
    intros [= <-]. apply andb_true_iff in E. destruct E as (E1 & E2). apply Nat.leb_le in E1. apply Nat.ltb_lt in E2.
    split; [lia|]. replace (48 + (nat_of_ascii c - 48)) with (nat_of_ascii c) by lia. now rewrite ascii_nat_embedding.
  - intros (Hk & ->). rewrite nat_ascii by lia.
    replace (Nat.leb 48 (48 + k)) with true by (symmetry; apply Nat.leb_le; lia).
    replace (Nat.ltb (48 + k) (48 + 10)) with true by (symmetry; apply Nat.ltb_lt; lia). simpl andb. cbv iota. f_equal. lia.
Qed.

Lemma find_upper_spec c k : find_upper c = Some k <-> k < 26 /\ c = upper k.
Proof.
  unfold find_upper, in_range_code, upper. split.
  - destruct (Nat.leb 65 (nat_of_ascii c) && Nat.ltb (nat_of_ascii c) (65 + 26))%bool eqn:E; [|discriminate].
    intros [= <-]. apply andb_true_iff in E. destruct E as (E1 & E2). apply Nat.leb_le in E1. apply Nat.ltb_lt in E2.
    split; [lia|]. replace (65 + (nat_of_ascii c - 65)) with (nat_of_ascii c) by lia. now rewrite ascii_nat_embedding.
  - intros (Hk & ->). rewrite nat_ascii by lia.
    replace (Nat.leb 65 (65 + k)) with true by (symmetry; apply Nat.leb_le; lia).
    replace (Nat.ltb (65 + k) (65 + 26)) with true by (symmetry; apply Nat.ltb_lt; lia). simpl andb. cbv iota. f_equal. lia.
Qed.

Lemma find_dir_spec c d : find_dir c = Some d <-> c = dir_char d.
Proof.
  unfold find_dir, dir_char. split.
  - destruct (Ascii.eqb_spec c "L"); [intros [= <-]; auto|]. destruct (Ascii.eqb_spec c "R"); [intros [= <-]; auto|discriminate].
  - intros ->. now destruct d.
Qed.

(** the three characters of a cell *)
Definition cell_text (t : transition nat sstate) : triple :=
  match t_cond t with
  | UNDEFINED => ("-", "-", "-")%char
  | _ => (digit (t_sym t), dir_char (t_dir t), match t_state t with SRun q => upper q | SHalt => "Z"%char end)
  end.
Definition flat (t : triple) : str := let '(a, b, c) := t in [a; b; c].

Lemma std_cell_text n m i j t :
  std_cell n m i j t -> n < 25 -> m < 10 -> to_ttable_str t = Some (flat (cell_text t)).
Proof.
  intros H Hn Hm. destruct H; cbn -[Nat.ltb digit upper]; auto.
  - replace (Nat.ltb w 10) with true by (symmetry; apply Nat.ltb_lt; lia). reflexivity.
  - replace (Nat.ltb w 10) with true by (symmetry; apply Nat.ltb_lt; lia).
    replace (Nat.ltb q 26) with true by (symmetry; apply Nat.ltb_lt; lia). reflexivity.
Qed.

Lemma digit_dash k : k < 10 -> Ascii.eqb (digit k) "-" = false.
Proof. intros H. do 10 (destruct k as [|k]; [reflexivity|]). lia. Qed.

Lemma std_cell_parse n m i j t :
  std_cell n m i j t -> n < 25 -> m < 10 -> parse_trans n i j (cell_text t) = Some (cell_quints i j t).
Proof.
  intros H Hn Hm. destruct H; cbn -[Nat.leb find_digit find_upper find_dir digit upper dir_char]; auto.
  - rewrite digit_dash by lia. cbn -[Nat.leb find_digit find_upper find_dir digit upper dir_char].
    rewrite (proj2 (find_digit_spec _ w)) by (split; [lia|auto]). rewrite (proj2 (find_dir_spec _ d)) by auto.
    assert (E : find_upper "Z" = Some 25) by reflexivity. rewrite E.
    assert (E' : Nat.leb n 25 = true) by (apply Nat.leb_le; lia). now rewrite E'.
  - rewrite digit_dash by lia. cbn -[Nat.leb find_digit find_upper find_dir digit upper dir_char].
    rewrite (proj2 (find_digit_spec _ w)) by (split; [lia|auto]). rewrite (proj2 (find_dir_spec _ d)) by auto.
    rewrite (proj2 (find_upper_spec _ q)) by (split; [lia|auto]).
    replace (Nat.leb n q) with false by (symmetry; apply Nat.leb_gt; lia). reflexivity.
Qed.

(** a character that may stand in a printed table *)
Definition text_char (c : ascii) : bool := negb (is_space c) && negb (Ascii.eqb c "_").

Lemma text_digit k : k < 10 -> text_char (digit k) = true.
Proof. intros H. do 10 (destruct k as [|k]; [reflexivity|]). lia. Qed.
Lemma text_upper k : k < 26 -> text_char (upper k) = true.
Proof. intros H. do 26 (destruct k as [|k]; [reflexivity|]). lia. Qed.

Lemma std_cell_chars n m i j t c :
  std_cell n m i j t -> n < 25 -> m < 10 -> In c (flat (cell_text t)) -> text_char c = true.
Proof.
  intros H Hn Hm. destruct H as [|w d Hw|w d q Hw Hq]; cbn -[digit upper text_char].
  - intros [<- |[<- |[<- |[]]]]; reflexivity.
  - intros [<- |[<- |[<- |[]]]]; try reflexivity; [apply text_digit; lia|now destruct d].
  - intros [<- |[<- |[<- |[]]]]; [apply text_digit; lia|now destruct d|apply text_upper; lia].
Qed.

Lemma split_join (rows : list str) :
  rows <> [] -> (forall r c, In r rows -> In c r -> Ascii.eqb c "_" = false) -> split_on "_" (join "_" rows) = rows.
Proof.
  assert (Hone : forall r rest, (forall c, In c r -> Ascii.eqb c "_" = false) ->
    split_on "_" (r ++ "_"%char :: rest) = r :: split_on "_" rest).
  { induction r as [|c r IH]; intros rest Hr; cbn [app split_on].
    - reflexivity.
    - rewrite (Hr c) by (left; auto). rewrite IH by (intros; apply Hr; right; auto). reflexivity. }
  assert (Hlast : forall r, (forall c, In c r -> Ascii.eqb c "_" = false) -> split_on "_" r = [r]).
  { induction r as [|c r IH]; intros Hr; cbn [split_on]; auto.
    rewrite (Hr c) by (left; auto). rewrite IH by (intros; apply Hr; right; auto). reflexivity. }
  induction rows as [|r rows IH]; [congruence|]. intros _ H. cbn [join]. destruct rows as [|r' rows].
  - apply Hlast. intros c Hc. apply (H r); simpl; auto.
  - rewrite Hone by (intros c Hc; apply (H r); simpl; auto). f_equal. apply IH; [discriminate|].
    intros x c Hx Hc. apply (H x c); auto. now right.
Qed.

Lemma chunk3_flat (l : list triple) : chunk3 (concat (map flat l)) = Some l.
Proof. induction l as [|[[a b] c] l IH]; simpl; auto. now rewrite IH. Qed.

Lemma lstrip_id s : (forall c, In c s -> is_space c = false) -> lstrip s = s.
Proof. destruct s as [|c s]; simpl; intros H; auto. now rewrite (H c) by auto. Qed.
Lemma strip_id s : (forall c, In c s -> is_space c = false) -> strip s = s.
Proof.
  intros H. unfold strip. rewrite (lstrip_id s) by auto. rewrite lstrip_id; [apply rev_involutive|].
  intros c Hc. apply H. now apply in_rev.
Qed.

(** the text of a table *)
Definition table_text (tab : ttable) : str := join "_" (map (fun row => concat (map (fun t => flat (cell_text t)) row)) tab).

Lemma In_join (rows : list str) c : In c (join "_" rows) -> c = "_"%char \/ exists r, In r rows /\ In c r.
Proof.
  induction rows as [|r rows IH]; simpl; [tauto|]. destruct rows as [|r' rows].
  - intros H. right. exists r. auto.
  - rewrite in_app_iff. intros [H|[H|H]]; [right; eauto|left; auto|].
    destruct (IH H) as [?|(x & Hx & Hc)]; auto. right. exists x. simpl in Hx |- *. tauto.
Qed.

Lemma In_row_cell {A} n m (tab : list (list A)) row t : rect n m tab -> In row tab -> In t row -> exists i j, cell tab i j = Some t.
Proof.
  intros _ Hr Ht. apply In_nth_error in Hr. destruct Hr as (i & Hi). apply In_nth_error in Ht. destruct Ht as (j & Hj).
  exists i, j. unfold cell. now rewrite Hi.
Qed.

Section Text.
  Variables (n m : nat) (tab : ttable).
  Hypothesis Hstd : std_table n m tab.
  Hypothesis Hn : n < 25.
  Hypothesis Hm : m < 10.

  Lemma print_std : ttable_str tab n m = Some (table_text tab).
  Proof.
    destruct Hstd as (Hr & Hs). unfold ttable_str, table_text.
    replace (Nat.ltb n 25) with true by (symmetry; now apply Nat.ltb_lt).
    replace (Nat.ltb m 10) with true by (symmetry; now apply Nat.ltb_lt). cbn [andb].
    rewrite (otraverse_map _ (fun row => concat (map (fun t => flat (cell_text t)) row))); auto.
    intros row Hrow. rewrite (otraverse_map _ (fun t => flat (cell_text t))); auto.
    intros t Ht. destruct (In_row_cell _ _ _ _ _ Hr Hrow Ht) as (i & j & Hc). eapply std_cell_text; eauto.
  Qed.

  Lemma row_chars row c : In row tab -> In c (concat (map (fun t => flat (cell_text t)) row)) -> text_char c = true.
  Proof.
    destruct Hstd as (Hr & Hs). intros Hrow Hc. apply in_concat in Hc. destruct Hc as (l & Hl & Hc).
    apply in_map_iff in Hl. destruct Hl as (t & <- & Ht).
    destruct (In_row_cell _ _ _ _ _ Hr Hrow Ht) as (i & j & Hcell). eapply std_cell_chars; eauto.
  Qed.

  Lemma text_no_space c : In c (table_text tab) -> is_space c = false.
  Proof.
    intros H. apply In_join in H. destruct H as [->|(r & Hr & Hc)]; auto.
    apply in_map_iff in Hr. destruct Hr as (row & <- & Hrow). apply (row_chars _ _ Hrow) in Hc.
    unfold text_char in Hc. destruct (is_space c); auto.
  Qed.

  Lemma text_split : tab <> [] -> split_on "_" (table_text tab) = map (fun row => concat (map (fun t => flat (cell_text t)) row)) tab.
  Proof.
    intros Hne. apply split_join; [now destruct tab|]. intros r c Hr Hc.
    apply in_map_iff in Hr. destruct Hr as (row & <- & Hrow). apply (row_chars _ _ Hrow) in Hc.
    unfold text_char in Hc. apply andb_true_iff in Hc. destruct Hc as (_ & Hc). now apply negb_true_iff in Hc.
  Qed.

  Lemma fold_max_const {A} (rows : list (list A)) k :
    (forall r, In r rows -> length r = m) -> rows <> [] -> k <= m - 1 ->
    fold_left (fun k r => Nat.max k (length r - 1)) rows k = m - 1.
  Proof.
    revert k. induction rows as [|r rows IH]; [congruence|]. intros k H _ Hk. simpl.
    rewrite (H r) by (left; auto). replace (Nat.max k (m - 1)) with (m - 1) by lia.
    destruct rows as [|r' rows]; auto. apply IH; auto; [intros; apply H; now right|discriminate].
  Qed.

  Theorem parse_table_text : 0 < n -> 0 < m -> parse_tm (table_text tab) = Some (tab, n, m).
  Proof.
    intros Hn0 Hm0. pose proof Hstd as (Hr & Hs). pose proof Hr as (Hl & Hrow). unfold parse_tm.
    replace (existsb (Ascii.eqb " ") (table_text tab)) with false.
    2:{ symmetry. destruct (existsb (Ascii.eqb " ") (table_text tab)) eqn:E; auto. apply existsb_exists in E.
        destruct E as (c & Hc & E). apply Ascii.eqb_eq in E. subst c. apply text_no_space in Hc. discriminate. }
    rewrite strip_id by exact text_no_space. rewrite text_split by (destruct tab; simpl in *; [lia|discriminate]).
    rewrite map_map. rewrite (otraverse_map _ (fun row => map cell_text row)).
    2:{ intros row _. replace (concat (map (fun t => flat (cell_text t)) row)) with (concat (map flat (map cell_text row))) by (now rewrite map_map).
        apply chunk3_flat. }
    rewrite map_length, Hl. rewrite fold_max_const.
    2:{ intros r H. apply in_map_iff in H. destruct H as (row & <- & H). rewrite map_length. auto. }
    2:{ destruct tab; simpl in *; [lia|discriminate]. }
    2:{ lia. }
    replace (S (m - 1)) with m by lia.
    assert (Hcell : forall i j, cell (map (fun row => map cell_text row) tab) i j = option_map cell_text (cell tab i j)).
    { intros i j. unfold cell. rewrite nth_error_map. unfold ttable, trans_row in *. destruct (nth_error tab i); simpl; auto. apply nth_error_map. }
    destruct (row_quints (parse_trans n) (map (fun row => map cell_text row) tab)) as [qs|] eqn:Eq.
    - destruct (row_quints_spec _ _ _ Eq) as (_ & Hin). rewrite (rebuild n m tab qs); auto.
      intros q. rewrite Hin. split.
      + intros (i & j & t & l & Hc & Hp & Hq). rewrite Hcell in Hc. destruct (cell tab i j) as [t'|] eqn:Et; [|discriminate].
        injection Hc as <-. rewrite (std_cell_parse n m i j t') in Hp by eauto. injection Hp as <-. eauto 6.
      + intros (i & j & t & Hc & Hq). exists i, j, (cell_text t), (cell_quints i j t). rewrite Hcell, Hc.
        split; auto. split; auto. apply (std_cell_parse n m); auto.
    - exfalso. apply (row_quints_total (parse_trans n) (map (fun row => map cell_text row) tab)); auto.
      intros i j t Hc. rewrite Hcell in Hc. destruct (cell tab i j) as [t'|] eqn:Et; [|discriminate].
      injection Hc as <-. rewrite (std_cell_parse n m i j t') by eauto. discriminate.
  Qed.
End Text.
