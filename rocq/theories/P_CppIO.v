(** * Reading and writing of machines in C++: lemmas *)
Require Import ZArith List Lia Bool Arith Ascii Permutation.
From Verif Require Import Spec_TM Spec_Rename M_Turing_Machine M_IO M_Enum P_Quint P_IO P_Stream P_Macro P_Tree P_Queue M_Cpp P_Cpp M_CppLR M_CppIO.
Import ListNotations.
Open Scope nat_scope.

(** ** text *)

Definition lk_text (x : lookup) : str :=
  if lk_undecided x then ["-"; "-"; "-"]%char
  else [digit (lk_symbol x); dir_char (lk_move x); match lk_state x with SRun q => upper q | SHalt => "Z"%char end].
Definition row_text (row : list lookup) : str := concat (map lk_text row).
Definition trans_text (t : list (list lookup)) : str := join "_" (map row_text t).

Lemma map_nth_seq {A B} (l : list A) (f : nat -> B) (g : A -> B) :
  (forall i x, nth_error l i = Some x -> f i = g x) -> map f (seq 0 (length l)) = map g l.
Proof.
  revert f. induction l as [|a l IH]; intros f H; [reflexivity|]. cbn [length seq map]. rewrite (H 0 a eq_refl). f_equal.
  rewrite <- seq_shift, map_map. apply IH. intros i x E. now apply (H (S i)).
Qed.

Lemma cell_chars_wf n m x : n < 26 -> m < 10 -> wf_lookup n m x -> cell_chars x = Some (lk_text x).
Proof.
  intros Hn Hm [-> |(U & Hw & Hq)]; [reflexivity|]. unfold cell_chars, lk_text. rewrite U.
  destruct (Nat.ltb_spec (lk_symbol x) 10); [|lia]. destruct (lk_state x) as [q|]; [|reflexivity]. destruct (Nat.ltb_spec q 26); [reflexivity|lia].
Qed.

Lemma write_wf n m tm : n < 26 -> m < 10 -> c_states tm = n -> c_symbols tm = m -> wf_trans n m (c_trans tm) ->
  write_cpp tm = PDone (trans_text (c_trans tm)).
Proof.
  intros Hn Hm En Em (Hr & Hw). unfold write_cpp. rewrite En, Em.
  destruct (Nat.ltb_spec n 26); [|lia]. destruct (Nat.ltb_spec m 10); [|lia]. cbn [andb].
  assert (E : map (row_chars tm) (seq 0 n) = map (fun row => Some (row_text row)) (c_trans tm)).
  { rewrite <- (proj1 Hr). apply map_nth_seq. intros i row Er. unfold row_chars. rewrite Em.
    assert (E : map (fun j => match c_lookup tm i j with Some x => cell_chars x | None => None end) (seq 0 m) = map (fun x => Some (lk_text x)) row).
    { rewrite <- (proj2 Hr row (nth_error_In _ _ Er)). apply map_nth_seq. intros j x Ex. unfold c_lookup. rewrite Er, Ex.
      apply (cell_chars_wf n m); auto. apply (Hw i j). unfold cell. now rewrite Er. }
    rewrite E. rewrite <- (map_map lk_text Some), otraverse_some. reflexivity. }
  rewrite E, <- (map_map row_text Some), otraverse_some. reflexivity.
Qed.

Lemma digit_not k : k < 10 -> Ascii.eqb (digit k) "_" = false /\ Ascii.eqb (digit k) "-" = false /\ ends_tm (digit k) = false.
Proof. intros H. do 10 (destruct k as [|k]; [repeat split|]). lia. Qed.
Lemma upper_not k : k < 25 -> Ascii.eqb (upper k) "Z" = false /\ ends_tm (upper k) = false.
Proof. intros H. do 25 (destruct k as [|k]; [repeat split|]). lia. Qed.

(** what may follow a row *)
Definition row_end (s : str) : Prop := s = [] \/ exists s', s = "_"%char :: s'.
Lemma read_row_text n m row rest : n < 26 -> m < 10 -> (forall x, In x row -> wf_lookup n m x) -> row_end rest ->
  read_row (row_text row ++ rest) = PDone (row, rest).
Proof.
  intros Hn Hm H He. induction row as [|x row IH].
  - destruct He as [-> |(s' & ->)]; reflexivity.
  - assert (Hx : wf_lookup n m x) by (apply H; now left). specialize (IH (fun y Hy => H y (or_intror Hy))).
    unfold row_text in *. cbn [map concat]. destruct Hx as [-> |(U & Hw & Hq)].
    + cbn [lk_text empty_trans lk_undecided app]. cbn [read_row]. change (Ascii.eqb "-" "_") with false. change (Ascii.eqb "-" "-") with true. cbv iota.
      rewrite IH. reflexivity.
    + assert (Ex : lk_text x = [digit (lk_symbol x); dir_char (lk_move x); match lk_state x with SRun q => upper q | SHalt => "Z"%char end])
        by (unfold lk_text; now rewrite U).
      rewrite Ex. clear Ex. cbn [app]. cbn [read_row]. destruct (digit_not (lk_symbol x) ltac:(lia)) as (-> & -> & _).
      assert (W10 : lk_symbol x < 10) by lia. rewrite (proj2 (find_digit_spec _ _) (conj W10 eq_refl)).
      rewrite (proj2 (find_dir_spec _ _) eq_refl). destruct x as [w d q u]. cbn [lk_symbol lk_move lk_state lk_undecided] in *. subst u.
      destruct q as [q|].
      * destruct (upper_not q ltac:(lia)) as (-> & _). assert (Q26 : q < 26) by lia. rewrite (proj2 (find_upper_spec _ _) (conj Q26 eq_refl)).
        cbn [option_map]. rewrite IH. reflexivity.
      * cbn [Ascii.eqb Bool.eqb]. rewrite IH. reflexivity.
Qed.

Lemma row_text_nil m row : length row = m -> 0 < m -> exists c s, row_text row = c :: s.
Proof. intros E H. destruct row as [|x row]; [simpl in E; lia|]. unfold row_text. cbn [map concat]. unfold lk_text. destruct (lk_undecided x); simpl; eauto. Qed.

Lemma read_rows_text n m t : n < 26 -> m < 10 -> 0 < m -> (forall row, In row t -> length row = m /\ forall x, In x row -> wf_lookup n m x) ->
  forall fuel, length t <= fuel -> read_rows fuel (trans_text t) = PDone t.
Proof.
  intros Hn Hm Hp. unfold trans_text. induction t as [|row t IH]; intros H fuel Hf; [destruct fuel; reflexivity|].
  cbn [length] in Hf. destruct fuel as [|fuel]; [lia|]. destruct (H row (or_introl eq_refl)) as (Hl & Hw).
  destruct (row_text_nil m row Hl Hp) as (c & s & Ec).
  assert (E : exists rest, join "_" (map row_text (row :: t)) = row_text row ++ rest /\ row_end rest /\ tl rest = join "_" (map row_text t)).
  { destruct t as [|row2 t].
    - exists []. cbn [map join tl]. rewrite app_nil_r. split; [reflexivity|]. split; [now left|reflexivity].
    - eexists. cbn [map join]. split; [reflexivity|]. split; [right; eauto|reflexivity]. }
  destruct E as (rest & -> & He & Et). rewrite Ec at 1. cbn [app read_rows]. change (c :: s ++ rest) with ((c :: s) ++ rest). rewrite <- Ec.
  rewrite (read_row_text n m); auto. cbn [pbind fst snd]. rewrite Et, IH; [reflexivity| |lia]. intros r Hr. apply H. now right.
Qed.

Lemma text_ends n m t c : n < 26 -> m < 10 -> (forall row, In row t -> forall x, In x row -> wf_lookup n m x) -> In c (trans_text t) -> ends_tm c = false.
Proof.
  intros Hn Hm H Hc. unfold trans_text in Hc. apply In_join in Hc. destruct Hc as [-> |(r & Hr & Hc)]; [reflexivity|].
  apply in_map_iff in Hr. destruct Hr as (row & <- & Hr). unfold row_text in Hc. apply in_concat in Hc. destruct Hc as (l & Hl & Hc).
  apply in_map_iff in Hl. destruct Hl as (x & <- & Hx). destruct (H _ Hr _ Hx) as [-> |(U & Hw & Hq)].
  - cbn in Hc. destruct Hc as [<-|[<-|[<-|[]]]]; reflexivity.
  - unfold lk_text in Hc. rewrite U in Hc. destruct Hc as [<-|[<-|[<-|[]]]].
    + apply digit_not. lia.
    + destruct (lk_move x); reflexivity.
    + destruct (lk_state x) as [q|]; [|reflexivity]. apply upper_not. lia.
Qed.

Definition no_end (s : str) : Prop := forall c, In c s -> ends_tm c = false.
Lemma trim_app s extra : no_end s -> extra = [] \/ (exists c e, extra = c :: e /\ ends_tm c = true) -> trim (s ++ extra) = s.
Proof.
  intros H He. induction s as [|c s IH].
  - destruct He as [-> |(c & e & -> & E)]; [reflexivity|]. cbn [app trim]. now rewrite E.
  - cbn [app trim]. rewrite (H c) by now left. f_equal. apply IH. intros x Hx. apply H. now right.
Qed.

Lemma join_length (l : list str) : (forall s, In s l -> s <> []) -> length l <= length (join "_" l).
Proof.
  induction l as [|s l IH]; intros H; [simpl; lia|]. pose proof (H s (or_introl eq_refl)) as Hs. specialize (IH (fun x Hx => H x (or_intror Hx))).
  destruct s as [|c s]; [congruence|]. destruct l as [|s2 l]; [simpl; lia|].
  change (join "_" ((c :: s) :: s2 :: l)) with ((c :: s) ++ "_"%char :: join "_" (s2 :: l)). rewrite app_length.
  cbn [length] in *. lia.
Qed.

Lemma wf_rows n m t : wf_trans n m t -> forall row, In row t -> length row = m /\ forall x, In x row -> wf_lookup n m x.
Proof.
  intros ((Hl & Hr) & Hw) row H. split; [now apply Hr|]. intros x Hx. apply In_nth_error in H, Hx. destruct H as (i & Ei), Hx as (j & Ej).
  apply (Hw i j). unfold cell. now rewrite Ei.
Qed.

Lemma read_text_of n m t extra : 0 < n < 26 -> 0 < m < 10 -> wf_trans n m t -> extra = [] \/ (exists c e, extra = c :: e /\ ends_tm c = true) ->
  read_cpp (trans_text t ++ extra) = match table_tm t with Some tm => PDone tm | None => PUndefined end.
Proof.
  intros Hn Hm W He. pose proof (wf_rows _ _ _ W) as Hr. unfold read_cpp.
  rewrite trim_app; [|intros c; apply (text_ends n m); [lia|lia|intros row H; apply (Hr row H)]|exact He].
  rewrite (read_rows_text n m); [reflexivity|lia|lia|lia|exact Hr|].
  rewrite app_length. unfold trans_text. rewrite <- (map_length row_text t) at 1. enough (length (map row_text t) <= length (join "_" (map row_text t))) by lia.
  apply join_length. intros s Hs. apply in_map_iff in Hs. destruct Hs as (row & <- & H).
  destruct (row_text_nil m row (proj1 (Hr _ H)) ltac:(lia)) as (c & s & ->). discriminate.
Qed.

(** ** the same text for Python *)

Lemma std_to_tab n m t : wf_trans n m t -> std_table n m (to_tab t).
Proof.
  intros (Hr & Hw). split; [now apply rect_to_tab|]. intros i j x. rewrite cell_to_tab. destruct (cell t i j) as [y|] eqn:E; [|discriminate].
  intros [= <-]. destruct (Hw _ _ _ E) as [-> |(U & Hs & Hq)]; [constructor|]. unfold py_cell. rewrite U.
  destruct (lk_state y) as [q|]; now constructor.
Qed.
Lemma mapi_from_map {A B C} (f : nat -> A -> B) (g : B -> C) (h : A -> C) : (forall i a, g (f i a) = h a) ->
  forall l k, map g (mapi_from f k l) = map h l.
Proof. intros H. induction l as [|a l IH]; intros k; [reflexivity|]. cbn [mapi_from map]. now rewrite H, IH. Qed.
Lemma lk_text_py i j x : wf_lookup (S i) (S j) x \/ True -> lk_text x = flat (cell_text (py_cell i j x)).
Proof. intros _. unfold lk_text, py_cell. destruct (lk_undecided x); [reflexivity|]. destruct (lk_state x); reflexivity. Qed.
Lemma same_text t : table_text (to_tab t) = trans_text t.
Proof.
  unfold table_text, trans_text. f_equal. unfold to_tab, mapi. apply mapi_from_map. intros i row. unfold row_text. f_equal.
  apply mapi_from_map. intros j x. symmetry. now apply lk_text_py; right.
Qed.
