(** * The children of a node, and the completeness of the tree *)
Require Import ZArith List Lia Bool Arith.
From Verif Require Import Spec_TM Spec_Rename M_Turing_Machine M_IO M_Enum P_Macro P_Quint P_IO.
Import ListNotations.
Open Scope nat_scope.

(** ** table facts *)

Lemma cell_at_cell tab i j : cell_at tab i j = cell tab i j.
Proof. reflexivity. Qed.
Lemma simple_trans_at tab i j : simple_trans tab j (SRun i) = cell tab i j.
Proof. reflexivity. Qed.

Lemma table_of_cell tab i j :
  table_of tab i j = match cell tab i j with
                     | Some t => match t_cond t, t_state t with
                                 | RUNNING, SRun q' => Go (t_sym t) (t_dir t) q'
                                 | HALT, _ => Stop (t_sym t) (t_dir t) true
                                 | _, _ => Stop (t_sym t) (t_dir t) false
                                 end
                     | None => Stop 1 R false
                     end.
Proof. unfold table_of, cell. unfold ttable, trans_row in *. destruct (nth_error tab i) as [row|]; [destruct (nth_error row j)|]; reflexivity. Qed.

Lemma In_grid2 n m a : In a (grid n m) <-> fst a < n /\ snd a < m.
Proof. destruct a as [i j]. unfold grid. rewrite in_prod_iff, !in_seq. simpl. lia. Qed.

Lemma NoDup_prod {A B} (x : list A) (y : list B) : NoDup x -> NoDup y -> NoDup (list_prod x y).
Proof.
  induction 1 as [|a x Hn Hx IH]; simpl; intros Hy; [constructor|].
  assert (Hm : NoDup (map (fun b => (a, b)) y)) by (apply FinFun.Injective_map_NoDup; auto; intros p q E; congruence).
  revert Hm. generalize (IH Hy). intros Hp Hm.
  assert (D : forall p, In p (map (fun b => (a, b)) y) -> ~ In p (list_prod x y)).
  { intros p Hp1 Hp2. apply in_map_iff in Hp1. destruct Hp1 as (b & <- & _). apply in_prod_iff in Hp2. tauto. }
  clear -Hp Hm D. induction Hm as [|p l Hnp Hl IH]; simpl; auto. constructor.
  - rewrite in_app_iff. intros [H|H]; [auto|]. apply (D p); simpl; auto.
  - apply IH. intros q Hq. apply D. simpl. auto.
Qed.
Lemma NoDup_grid n m : NoDup (grid n m).
Proof. apply NoDup_prod; apply seq_NoDup. Qed.

Lemma all_trans_total n m tab : rect n m tab -> exists ts, all_trans tab n m = Some ts.
Proof.
  intros H. apply otraverse_all. intros x Hx. apply in_map_iff in Hx. destruct Hx as ((i & j) & <- & Ha).
  apply In_grid2 in Ha. simpl in *. rewrite simple_trans_at. destruct (rect_cell n m tab i j H) as (v & ->); [tauto|tauto|discriminate].
Qed.

Lemma all_trans_In n m tab ts t : all_trans tab n m = Some ts ->
  (In t ts <-> exists i j, i < n /\ j < m /\ cell tab i j = Some t).
Proof.
  intros E. rewrite (otraverse_In _ _ t E), in_map_iff. split.
  - intros ((i & j) & Ht & Ha). apply In_grid2 in Ha. exists i, j. simpl in *. intuition.
  - intros (i & j & Hi & Hj & Ht). exists (i, j). split; [exact Ht|]. now apply In_grid2.
Qed.

(** ** the metrics *)

Lemma fold_max_spec (f : transition nat sstate -> option nat) ts : forall k0,
  let r := fold_left (fun k t => match f t with None => k | Some v => Nat.max k v end) ts k0 in
  k0 <= r /\ (forall t v, In t ts -> f t = Some v -> v <= r) /\ (r = k0 \/ exists t v, In t ts /\ f t = Some v /\ v = r).
Proof.
  induction ts as [|t ts IH]; intros k0 r; simpl in r.
  - unfold r. repeat split; auto. intros ? ? [].
  - destruct (f t) as [v|] eqn:Ef.
    + destruct (IH (Nat.max k0 v)) as (H1 & H2 & H3). fold r in H1, H2, H3. split; [lia|]. split.
      * intros t' v' [<-|H] E; [assert (v' = v) by congruence; lia|eauto].
      * destruct H3 as [H3|(t' & v' & Ht & Ev & Hr)]; [|right; exists t', v'; simpl; auto].
        destruct (Nat.max_spec k0 v) as [(_ & E)|(_ & E)]; rewrite E in H3.
        -- right. exists t, v. simpl. auto.
        -- left. auto.
    + destruct (IH k0) as (H1 & H2 & H3). fold r in H1, H2, H3. split; [lia|]. split.
      * intros t' v' [<-|H] E; [congruence|eauto].
      * destruct H3 as [H3|(t' & v' & Ht & Ev & Hr)]; [auto|right; exists t', v'; simpl; auto].
Qed.

Definition used_state (t : transition nat sstate) : option nat :=
  if is_undefined t then None else Some (match t_state t with SRun q => q | SHalt => 0 end).
Definition used_symbol (t : transition nat sstate) : option nat :=
  if is_undefined t then None else Some (t_sym t).

Lemma fold_left_ext {A B} (f g : A -> B -> A) l : (forall a b, f a b = g a b) -> forall a, fold_left f l a = fold_left g l a.
Proof. intros H. induction l as [|b l IH]; simpl; intros a; auto. now rewrite H, IH. Qed.

Lemma max_state_spec ts : let r := max_state_of ts in
  (forall t v, In t ts -> used_state t = Some v -> v <= r) /\ (r = 0 \/ exists t, In t ts /\ used_state t = Some r).
Proof.
  intros r. destruct (fold_max_spec used_state ts 0) as (_ & H2 & H3).
  unfold r, max_state_of.
  rewrite (fold_left_ext _ (fun k t => match used_state t with None => k | Some v => Nat.max k v end)).
  2:{ intros k t. unfold used_state. now destruct (is_undefined t). }
  split; [exact H2|]. destruct H3 as [H3|(t & v & Ht & Ev & E)]; [auto|]. right. exists t. split; congruence.
Qed.
Lemma max_symbol_spec ts : let r := max_symbol_of ts in
  (forall t v, In t ts -> used_symbol t = Some v -> v <= r) /\ (r = 0 \/ exists t, In t ts /\ used_symbol t = Some r).
Proof.
  intros r. destruct (fold_max_spec used_symbol ts 0) as (_ & H2 & H3).
  unfold r, max_symbol_of.
  rewrite (fold_left_ext _ (fun k t => match used_symbol t with None => k | Some v => Nat.max k v end)).
  2:{ intros k t. unfold used_symbol. now destruct (is_undefined t). }
  split; [exact H2|]. destruct H3 as [H3|(t & v & Ht & Ev & E)]; [auto|]. right. exists t. split; congruence.
Qed.

(** number of undefined cells: two different undefined cells make at least two *)
Lemma undefined_two n m tab ts i j i' j' t t' :
  all_trans tab n m = Some ts -> cell tab i j = Some t -> cell tab i' j' = Some t' ->
  i < n -> j < m -> i' < n -> j' < m -> (i, j) <> (i', j') ->
  is_undefined t = true -> is_undefined t' = true -> 1 < num_undefined ts.
Proof.
  intros E Ht Ht' Hi Hj Hi' Hj' Hne Hu Hu'.
  assert (G : forall cells ts, otraverse (map (fun a => simple_trans tab (snd a) (SRun (fst a))) cells) = Some ts ->
     NoDup cells -> In (i, j) cells -> In (i', j') cells -> 1 < length (filter is_undefined ts)).
  2:{ apply (G (grid n m)); auto; [apply NoDup_grid|now apply In_grid2|now apply In_grid2]. }
  assert (G1 : forall cells ts a b u, otraverse (map (fun a => simple_trans tab (snd a) (SRun (fst a))) cells) = Some ts ->
     In (a, b) cells -> cell tab a b = Some u -> is_undefined u = true -> 0 < length (filter is_undefined ts)).
  { clear. induction cells as [|(x, y) cells IH]; intros ts a b u E H Hc Hu; [destruct H|].
    cbn -[simple_trans] in E. destruct (simple_trans tab y (SRun x)) as [v|] eqn:Ev; [|discriminate].
    destruct (otraverse (map (fun a0 => simple_trans tab (snd a0) (SRun (fst a0))) cells)) as [l|] eqn:El; [|discriminate].
    injection E as <-. simpl. destruct H as [[= -> ->]|H].
    - rewrite simple_trans_at in Ev. assert (v = u) by congruence. subst. rewrite Hu. simpl. lia.
    - specialize (IH l a b u eq_refl H Hc Hu). destruct (is_undefined v); simpl; lia. }
  clear E. induction cells as [|(x, y) cells IH]; intros us E Hd H H'; [destruct H|].
  cbn -[simple_trans] in E. destruct (simple_trans tab y (SRun x)) as [v|] eqn:Ev; [|discriminate].
  destruct (otraverse (map (fun a0 => simple_trans tab (snd a0) (SRun (fst a0))) cells)) as [l|] eqn:El; [|discriminate].
  injection E as <-. inversion Hd as [|? ? Hn Hd']; subst. rewrite simple_trans_at in Ev. simpl.
  destruct H as [[= -> ->]|H].
  - assert (v = t) by congruence. subst. rewrite Hu. simpl. destruct H' as [H'|H']; [congruence|].
    pose proof (G1 cells l i' j' t' El H' Ht' Hu'). lia.
  - destruct H' as [[= -> ->]|H'].
    + assert (v = t') by congruence. subst. rewrite Hu'. simpl. pose proof (G1 cells l i j t El H Ht Hu). lia.
    + specialize (IH l eq_refl Hd' H H'). destruct (is_undefined v); simpl; lia.
Qed.

(** ** the choices *)

Lemma In_choices n m ts q w d :
  In (q, w, d) (child_choices n m ts) <->
  q < n /\ w < m /\ q <= max_state_of ts + 1 /\ w <= max_symbol_of ts + 1 /\ (a_trans_defined ts = false -> d = R).
Proof.
  unfold child_choices. rewrite in_flat_map. split.
  - intros (q' & Hq & H). apply in_flat_map in H. destruct H as (w' & Hw & H). apply in_map_iff in H.
    destruct H as (d' & [= -> -> ->] & Hd). apply in_seq in Hq, Hw.
    repeat split; try lia. intros Ha. rewrite Ha in Hd. destruct Hd as [<-|[]]. reflexivity.
  - intros (H1 & H2 & H3 & H4 & H5). exists q. split; [apply in_seq; lia|]. apply in_flat_map. exists w.
    split; [apply in_seq; lia|]. apply in_map_iff. exists d. split; auto.
    destruct (a_trans_defined ts); [destruct d; simpl; auto|rewrite H5 by auto; simpl; auto].
Qed.

Lemma NoDup_flat_map {A B} (f : A -> list B) l :
  NoDup l -> (forall a, In a l -> NoDup (f a)) -> (forall a b x, In a l -> In b l -> In x (f a) -> In x (f b) -> a = b) ->
  NoDup (flat_map f l).
Proof.
  induction 1 as [|a l Hn Hl IH]; simpl; intros Hf Hd; [constructor|].
  assert (IH' : NoDup (flat_map f l)) by (apply IH; eauto).
  assert (D : forall x, In x (f a) -> ~ In x (flat_map f l)).
  { intros x Hx H. apply in_flat_map in H. destruct H as (b & Hb & Hx'). assert (a = b) by eauto. congruence. }
  generalize (Hf a (or_introl eq_refl)). clear -IH' D. induction 1 as [|x r Hx Hr IH]; simpl; auto.
  constructor.
  - rewrite in_app_iff. intros [H|H]; auto. apply (D x); simpl; auto.
  - apply IH. intros y Hy. apply D. simpl; auto.
Qed.

Lemma NoDup_choices n m ts : NoDup (child_choices n m ts).
Proof.
  unfold child_choices. apply NoDup_flat_map.
  - apply seq_NoDup.
  - intros q _. apply NoDup_flat_map; [apply seq_NoDup| |].
    + intros w _. apply FinFun.Injective_map_NoDup; [intros x y; congruence|].
      destruct (a_trans_defined ts); repeat constructor; simpl; intuition discriminate.
    + intros a b x _ _ Ha Hb. apply in_map_iff in Ha, Hb. destruct Ha as (? & <- & _), Hb as (? & E & _). congruence.
  - intros a b x _ _ Ha Hb. apply in_flat_map in Ha, Hb. destruct Ha as (? & _ & Ha), Hb as (? & _ & Hb).
    apply in_map_iff in Ha, Hb. destruct Ha as (? & <- & _), Hb as (? & E & _). congruence.
Qed.

Lemma set_cell_inj {A} n m (t : list (list A)) i j v v' :
  rect n m t -> i < n -> j < m -> set_cell t i j v = set_cell t i j v' -> v = v'.
Proof.
  intros Hr Hi Hj E. assert (H : cell (set_cell t i j v) i j = cell (set_cell t i j v') i j) by now rewrite E.
  rewrite !cell_set, !Nat.eqb_refl in H. simpl in H. destruct (rect_cell n m t i j Hr Hi Hj) as (x & Hx).
  rewrite Hx in H. congruence.
Qed.

Lemma NoDup_map_inj {A B} (f : A -> B) l : (forall x y, In x l -> In y l -> f x = f y -> x = y) -> NoDup l -> NoDup (map f l).
Proof.
  intros Hf H. revert Hf. induction H as [|a l Hn Hl IH]; simpl; intros Hf; constructor.
  - intros Hi. apply in_map_iff in Hi. destruct Hi as (b & E & Hb). assert (b = a) by (apply Hf; auto). congruence.
  - apply IH. intros. apply Hf; auto.
Qed.
