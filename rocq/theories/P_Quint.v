(** * Machines built from quintuples; transparency of the transition cache *)
Require Import ZArith List Lia Bool Arith.
From Verif Require Import Spec_TM M_Turing_Machine P_Stream P_SimLimited P_Macro.
Import ListNotations.
Open Scope nat_scope.

Lemma nth_error_lset {A} (l : list A) i v j :
  nth_error (lset l i v) j =
  if Nat.eqb i j then match nth_error l j with Some _ => Some v | None => None end
  else nth_error l j.
Proof.
  revert i j. induction l as [|a l IH]; intros [|i] [|j]; simpl; auto.
  - destruct (Nat.eqb i j); auto.
Qed.

Lemma nth_error_mapi_from {A B} (f : nat -> A -> B) l k i :
  nth_error (mapi_from f k l) i = option_map (f (k + i)) (nth_error l i).
Proof.
  revert k i. induction l as [|a l IH]; intros k [|i]; simpl; auto.
  - now rewrite Nat.add_0_r.
  - rewrite IH. now replace (S k + i) with (k + S i) by lia.
Qed.

Lemma mapi_from_length {A B} (f : nat -> A -> B) l k : length (mapi_from f k l) = length l.
Proof. revert k. induction l; simpl; auto. Qed.

Definition cell {A} (t : list (list A)) (i j : nat) : option A :=
  match nth_error t i with Some row => nth_error row j | None => None end.

Lemma cell_set {A} (t : list (list A)) i j v i' j' :
  cell (set_cell t i j v) i' j' =
  if Nat.eqb i i' && Nat.eqb j j' then
    match cell t i' j' with Some _ => Some v | None => None end
  else cell t i' j'.
Proof.
  unfold cell, set_cell.
  destruct (nth_error t i) as [row|] eqn:E.
  - rewrite nth_error_lset. destruct (Nat.eqb i i') eqn:Ei; simpl; auto.
    apply Nat.eqb_eq in Ei. subst i'. rewrite E, nth_error_lset.
    destruct (Nat.eqb j j'); auto.
  - destruct (Nat.eqb i i') eqn:Ei; simpl; auto.
    apply Nat.eqb_eq in Ei. subst i'. rewrite E. destruct (Nat.eqb j j'); auto.
Qed.

Definition rect {A} (n m : nat) (t : list (list A)) : Prop :=
  length t = n /\ forall row, In row t -> length row = m.

Lemma rect_cell {A} n m (t : list (list A)) i j :
  rect n m t -> i < n -> j < m -> exists v, cell t i j = Some v.
Proof.
  intros (Hl & Hr) Hi Hj. unfold cell.
  destruct (nth_error t i) as [row|] eqn:E.
  - destruct (nth_error row j) eqn:E'; [eauto|].
    apply nth_error_None in E'. rewrite (Hr row) in E'; [lia|]. eapply nth_error_In; eauto.
  - apply nth_error_None in E. lia.
Qed.

Lemma In_lset {A} (l : list A) i v x : In x (lset l i v) -> x = v \/ In x l.
Proof.
  revert i. induction l as [|a l IH]; intros [|i]; simpl; auto.
  - intros [<-|]; auto.
  - intros [<-|H]; auto. apply IH in H. destruct H; auto.
Qed.

Lemma rect_set {A} n m (t : list (list A)) i j v : rect n m t -> rect n m (set_cell t i j v).
Proof.
  intros (Hl & Hr). unfold set_cell. destruct (nth_error t i) as [row|] eqn:E; [|split; auto].
  split.
  - now rewrite lset_length.
  - intros row' H. apply In_lset in H. destruct H as [->|H]; auto.
    rewrite lset_length. apply Hr. eapply nth_error_In; eauto.
Qed.

(** ** Specification of a quintuple list *)

(** a row that defines a cell *)
Definition row_for (i j : nat) (q : quint) : bool :=
  Nat.eqb (q_state_in q) i && Nat.eqb (q_symbol_in q) j &&
  match q_symbol_out q with Some _ => true | None => false end.

(** the last such row *)
Definition last_row (qs : list quint) (i j : nat) : option quint :=
  find (row_for i j) (rev qs).

Definition row_in_range (n m : nat) (q : quint) : Prop :=
  match q_symbol_out q with
  | None => True
  | Some w => q_state_in q < n /\ q_symbol_in q < m /\ w < m /\
              match q_state_out q with SRun s => s < n | SHalt => True end
  end.

Definition row_action (q : quint) : action :=
  let w := match q_symbol_out q with Some w => w | None => 0 end in
  match q_state_out q with
  | SRun s => Go w (q_dir_out q) s
  | SHalt => Stop w (q_dir_out q) true
  end.

(** the transition object of a row, and of an empty cell *)
Definition row_trans (q : quint) : transition nat sstate :=
  let w := match q_symbol_out q with Some w => w | None => 0 end in
  match q_state_out q with
  | SRun s => Trans RUNNING [] w (SRun s) (q_dir_out q) 1 [(q_state_in q, 0)]
  | SHalt => Trans HALT [DCell (q_symbol_in q) (q_state_in q)] w SHalt (q_dir_out q) 1
                   [(q_state_in q, 0)]
  end.

Lemma add_quint_spec n m t q t' :
  rect n m t -> add_quint n m t q = Some t' ->
  rect n m t' /\ row_in_range n m q /\
  forall i j, i < n -> j < m ->
    cell t' i j = if row_for i j q then Some (Some (row_trans q)) else cell t i j.
Proof.
  intros Hr. unfold add_quint, row_in_range, row_for, row_trans.
  destruct (q_symbol_out q) as [w|].
  2:{ intros [= <-]. repeat split; auto; try apply Hr.
      intros. now rewrite andb_false_r. }
  destruct (Nat.ltb (q_state_in q) n && Nat.ltb (q_symbol_in q) m && Nat.ltb w m) eqn:E;
    [|discriminate].
  rewrite !andb_true_iff, !Nat.ltb_lt in E. destruct E as ((E1 & E2) & E3).
  destruct (q_state_out q) as [s|] eqn:Es.
  - destruct (Nat.ltb s n) eqn:E4; [|discriminate]. apply Nat.ltb_lt in E4.
    intros [= <-]. split; [now apply rect_set|]. split; [auto|].
    intros i j Hi Hj. rewrite cell_set, andb_true_r.
    destruct (Nat.eqb (q_state_in q) i && Nat.eqb (q_symbol_in q) j); auto.
    destruct (rect_cell n m t i j Hr Hi Hj) as (v & ->). reflexivity.
  - intros [= <-]. split; [now apply rect_set|]. split; [auto|].
    intros i j Hi Hj. rewrite cell_set, andb_true_r.
    destruct (Nat.eqb (q_state_in q) i && Nat.eqb (q_symbol_in q) j); auto.
    destruct (rect_cell n m t i j Hr Hi Hj) as (v & ->). reflexivity.
Qed.

Lemma find_app {A} (f : A -> bool) x y :
  find f (x ++ y) = match find f x with Some a => Some a | None => find f y end.
Proof. induction x as [|a x IH]; simpl; auto. destruct (f a); auto. Qed.

Lemma add_quints_spec n m qs : forall t t',
  rect n m t -> add_quints n m t qs = Some t' ->
  rect n m t' /\ Forall (row_in_range n m) qs /\
  forall i j, i < n -> j < m ->
    cell t' i j = match last_row qs i j with
                  | Some q => Some (Some (row_trans q))
                  | None => cell t i j
                  end.
Proof.
  induction qs as [|q qs IH]; simpl; intros t t' Hr E.
  - injection E as <-. repeat split; auto; apply Hr.
  - destruct (add_quint n m t q) as [t1|] eqn:E1; [|discriminate].
    destruct (add_quint_spec _ _ _ _ _ Hr E1) as (Hr1 & Hq & Hc1).
    destruct (IH _ _ Hr1 E) as (Hr' & Hqs & Hc).
    split; [exact Hr'|]. split; [constructor; auto|].
    intros i j Hi Hj. unfold last_row in *. simpl. rewrite find_app, (Hc i j Hi Hj).
    destruct (find (row_for i j) (rev qs)); auto. simpl.
    rewrite (Hc1 i j Hi Hj). destruct (row_for i j q); auto.
Qed.

Lemma add_quints_total n m qs : forall t,
  Forall (row_in_range n m) qs -> add_quints n m t qs <> None.
Proof.
  induction qs as [|q qs IH]; simpl; intros t H; [discriminate|].
  inversion H as [|? ? Hq Hqs]; subst.
  assert (exists t1, add_quint n m t q = Some t1) as (t1 & ->).
  { unfold add_quint, row_in_range in *. destruct (q_symbol_out q); [|eauto].
    destruct Hq as (H1 & H2 & H3 & H4).
    apply Nat.ltb_lt in H1, H2, H3. rewrite H1, H2, H3. simpl.
    destruct (q_state_out q); [|eauto]. apply Nat.ltb_lt in H4. rewrite H4. eauto. }
  now apply IH.
Qed.

Lemma rect_blank {A} n m (v : A) : rect n m (repeat (repeat v m) n).
Proof.
  split; [apply repeat_length|]. intros row H. apply repeat_spec in H. subst.
  apply repeat_length.
Qed.

Lemma cell_blank {A} n m (v : A) i j : i < n -> j < m -> cell (repeat (repeat v m) n) i j = Some v.
Proof.
  intros Hi Hj. unfold cell.
  rewrite (nth_error_nth' _ (repeat v m)) by (rewrite repeat_length; auto).
  rewrite nth_repeat. rewrite (nth_error_nth' _ v) by (rewrite repeat_length; auto).
  now rewrite nth_repeat.
Qed.

Lemma cell_fill t i j :
  cell (fill_undefined t) i j =
  option_map (fun o => match o with Some x => x | None => undefined_trans j i end) (cell t i j).
Proof.
  unfold cell, fill_undefined, mapi. rewrite nth_error_mapi_from.
  destruct (nth_error t i) as [row|]; simpl; auto.
  now rewrite nth_error_mapi_from.
Qed.

Theorem quintuples_cells qs n m tab i j :
  tm_from_quintuples qs n m = Some tab -> i < n -> j < m ->
  cell tab i j = Some (match last_row qs i j with
                       | Some q => row_trans q
                       | None => undefined_trans j i
                       end).
Proof.
  unfold tm_from_quintuples. intros E Hi Hj.
  destruct (add_quints n m (repeat (repeat None m) n) qs) as [t|] eqn:Ea; [|discriminate].
  injection E as <-.
  destruct (add_quints_spec n m qs _ _ (rect_blank n m None) Ea) as (_ & _ & H).
  rewrite cell_fill, (H i j Hi Hj). destruct (last_row qs i j); auto.
  now rewrite cell_blank.
Qed.

Lemma last_row_spec qs i j q :
  last_row qs i j = Some q ->
  In q qs /\ q_state_in q = i /\ q_symbol_in q = j /\ q_symbol_out q <> None.
Proof.
  intros H. apply find_some in H. destruct H as (Hin & H).
  apply in_rev in Hin. unfold row_for in H. rewrite !andb_true_iff, !Nat.eqb_eq in H.
  destruct H as ((H1 & H2) & H3). repeat split; auto. intros E. now rewrite E in H3.
Qed.

Theorem quintuples_wf qs n m tab :
  0 < n -> 0 < m -> tm_from_quintuples qs n m = Some tab -> wf_ttable n m tab.
Proof.
  intros Hn Hm E.
  assert (Hc := fun i j => quintuples_cells qs n m tab i j E).
  unfold tm_from_quintuples in E.
  destruct (add_quints n m (repeat (repeat None m) n) qs) as [t|] eqn:Ea; [|discriminate].
  destruct (add_quints_spec n m qs _ _ (rect_blank n m None) Ea) as ((Hl & Hr) & Hq & _).
  injection E as E.
  assert (Hlen : length tab = n) by (rewrite <- E; unfold fill_undefined, mapi;
                                     now rewrite mapi_from_length).
  assert (Hrow : forall row, In row tab -> length row = m).
  { intros row H. rewrite <- E in H. apply In_nth_error in H. destruct H as (i & H).
    unfold fill_undefined, mapi in H. rewrite nth_error_mapi_from in H.
    destruct (nth_error t i) as [r|] eqn:Er; simpl in H; [|discriminate].
    injection H as <-. rewrite mapi_from_length. apply Hr. eapply nth_error_In; eauto. }
  split; [exact Hn|]. split; [exact Hm|]. split; [exact Hlen|]. split; [exact Hrow|].
  intros i j row x Hi Hj.
  assert (Hin : i < n) by (rewrite <- Hlen; apply nth_error_Some; congruence).
  assert (Hjm : j < m).
  { rewrite <- (Hrow row) by (eapply nth_error_In; eauto). apply nth_error_Some. congruence. }
  specialize (Hc i j Hin Hjm). unfold cell in Hc. unfold ttable, trans_row in *. rewrite Hi, Hj in Hc. injection Hc as ->.
  destruct (last_row qs i j) as [q|] eqn:Elr.
  - apply last_row_spec in Elr. destruct Elr as (Hinq & <- & <- & Ho).
    rewrite Forall_forall in Hq. specialize (Hq q Hinq). unfold row_in_range in Hq.
    unfold row_trans. destruct (q_symbol_out q) as [w|]; [|congruence].
    destruct Hq as (H1 & H2 & H3 & H4).
    destruct (q_state_out q) as [s|]; repeat split; simpl; eauto.
  - repeat split.
Qed.

Theorem quintuples_table qs n m tab i j :
  tm_from_quintuples qs n m = Some tab -> i < n -> j < m ->
  table_of tab i j = match last_row qs i j with
                     | Some q => row_action q
                     | None => Stop 1 R false
                     end.
Proof.
  intros E Hi Hj. pose proof (quintuples_cells qs n m tab i j E Hi Hj) as Hc.
  unfold cell in Hc. unfold table_of. unfold ttable, trans_row in *.
  destruct (nth_error tab i) as [row|]; [|discriminate]. rewrite Hc.
  destruct (last_row qs i j) as [q|]; simpl; auto.
  unfold row_trans, row_action. destruct (q_state_out q); reflexivity.
Qed.

Theorem quintuples_accepts qs n m :
  tm_from_quintuples qs n m <> None <-> Forall (row_in_range n m) qs.
Proof.
  unfold tm_from_quintuples. split.
  - destruct (add_quints n m (repeat (repeat None m) n) qs) as [t|] eqn:Ea; [|congruence].
    intros _. now destruct (add_quints_spec n m qs _ _ (rect_blank n m None) Ea) as (_ & H & _).
  - intros H. destruct (add_quints n m (repeat (repeat None m) n) qs) as [t|] eqn:Ea; [discriminate|].
    exfalso. eapply add_quints_total; eauto.
Qed.

(** ** Cache *)
Section CacheProof.
  Context {K V : Type} (keqb : K -> K -> bool) (max_cells : nat) (eval : K -> option V).
  Hypothesis keqb_eq : forall a b, keqb a b = true -> a = b.

  Lemma get_trans_cached_ok t k t' v :
    (forall k v, cache_get keqb k t = Some v -> eval k = Some v) ->
    get_trans_cached keqb max_cells eval t k = (t', v) ->
    v = eval k /\ (forall k v, cache_get keqb k t' = Some v -> eval k = Some v).
  Proof.
    intros Ht. unfold get_trans_cached.
    destruct (cache_get keqb k t) as [v0|] eqn:E.
    - intros [= <- <-]. split; [symmetry; now apply Ht|exact Ht].
    - set (t1 := if Nat.leb max_cells (length t) then [] else t).
      assert (Ht1 : forall k v, cache_get keqb k t1 = Some v -> eval k = Some v).
      { unfold t1. destruct (Nat.leb max_cells (length t)); auto. simpl. discriminate. }
      destruct (eval k) as [v0|] eqn:Ev; intros [= <- <-]; (split; [reflexivity|]); auto.
      intros k' v' H. simpl in H. destruct (keqb k' k) eqn:Ek; [|auto].
      apply keqb_eq in Ek. congruence.
  Qed.

  Theorem run_requests_fresh ks : forall t,
    (forall k v, cache_get keqb k t = Some v -> eval k = Some v) ->
    run_requests keqb max_cells eval t ks = map eval ks.
  Proof.
    induction ks as [|k ks IH]; simpl; intros t Ht; auto.
    destruct (get_trans_cached keqb max_cells eval t k) as [t' v] eqn:E.
    destruct (get_trans_cached_ok _ _ _ _ Ht E) as (-> & Ht'). f_equal. now apply IH.
  Qed.

  (** the table never exceeds its capacity *)
  Fixpoint table_after (t : list (K * V)) (ks : list K) : list (K * V) :=
    match ks with
    | [] => t
    | k :: ks => table_after (fst (get_trans_cached keqb max_cells eval t k)) ks
    end.

  Theorem cache_bounded ks : forall t,
    length t <= Nat.max 1 max_cells -> length (table_after t ks) <= Nat.max 1 max_cells.
  Proof.
    induction ks as [|k ks IH]; simpl; intros t Ht; auto.
    apply IH. unfold get_trans_cached. destruct (cache_get keqb k t); [exact Ht|].
    destruct (Nat.leb max_cells (length t)) eqn:El.
    - destruct (eval k); cbn [fst length]; lia.
    - apply Nat.leb_gt in El. destruct (eval k); cbn [fst length]; lia.
  Qed.
End CacheProof.
