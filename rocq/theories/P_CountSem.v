(** * The machines that a table stands for *)
Require Import ZArith List Lia Bool Arith Permutation.
From Verif Require Import Spec_TM Spec_Rename M_Enum M_Count P_Tree P_Complete2 P_Count.
Import ListNotations.
Open Scope nat_scope.

(** ** ways to choose [k] different names *)

Fixpoint injs (k : nat) (avail : list nat) : list (list nat) :=
  match k with
  | 0 => [[]]
  | S k => flat_map (fun x => map (cons x) (injs k (remove Nat.eq_dec x avail))) avail
  end.

Lemma NoDup_remove_dec x l : NoDup l -> NoDup (remove Nat.eq_dec x l).
Proof.
  induction 1 as [|y l Hn Hl IH]; simpl; [constructor|]. destruct (Nat.eq_dec x y); auto. constructor; auto.
  intros H. apply in_remove in H. tauto.
Qed.
Lemma length_remove_dec x l : NoDup l -> In x l -> S (length (remove Nat.eq_dec x l)) = length l.
Proof.
  induction 1 as [|y l Hn Hl IH]; simpl; [intros []|]. intros Hx. destruct (Nat.eq_dec x y) as [-> |Hne].
  - f_equal. now rewrite notin_remove.
  - simpl. f_equal. apply IH. destruct Hx; congruence.
Qed.
Lemma In_injs k avail l : In l (injs k avail) <-> length l = k /\ NoDup l /\ incl l avail.
Proof.
  revert avail l. induction k as [|k IH]; intros avail l; simpl.
  - split; [intros [<-|[]]; repeat split; [constructor|intros x []]|]. intros (E & _). destruct l; [auto|discriminate].
  - rewrite in_flat_map. split.
    + intros (x & Hx & H). apply in_map_iff in H. destruct H as (l' & <- & H). apply IH in H. destruct H as (<- & Nd & Hi).
      repeat split.
      * constructor; auto. intros Hc. apply Hi, in_remove in Hc. tauto.
      * intros y [<-|Hy]; auto. apply Hi, in_remove in Hy. tauto.
    + destruct l as [|x l]; intros (E & Nd & Hi); [discriminate|]. inversion Nd; subst. exists x. split; [apply Hi; simpl; auto|].
      apply in_map, IH. split; [simpl in E; lia|]. split; auto. intros y Hy. apply in_in_remove; [|apply Hi; simpl; auto]. congruence.
Qed.
Lemma NoDup_injs k avail : NoDup avail -> NoDup (injs k avail).
Proof.
  revert avail. induction k as [|k IH]; intros avail Nd; simpl; [repeat constructor; intros []|].
  apply NoDup_flat_map; auto.
  - intros x _. apply FinFun.Injective_map_NoDup; [intros p q; congruence|]. now apply IH, NoDup_remove_dec.
  - intros x y l _ _ Hx Hy. apply in_map_iff in Hx, Hy. destruct Hx as (? & <- & _), Hy as (? & E & _). congruence.
Qed.
Lemma length_flat_map_const {A B} (f : A -> list B) l c : (forall a, In a l -> length (f a) = c) -> length (flat_map f l) = length l * c.
Proof. induction l as [|a l IH]; intros H; simpl; [reflexivity|]. rewrite app_length, (H a), IH by (intros; try apply H; simpl; auto). reflexivity. Qed.
Lemma length_injs k avail : NoDup avail -> k <= length avail ->
  Z.of_nat (length (injs k avail)) = prod_down k (Z.of_nat (length avail) - Z.of_nat k).
Proof.
  revert avail. induction k as [|k IH]; intros avail Nd Hk; [reflexivity|]. cbn [injs].
  destruct avail as [|y0 av0] eqn:Eav; [simpl in Hk; lia|]. rewrite <- Eav in *.
  assert (Hy : In y0 avail) by (rewrite Eav; simpl; auto).
  rewrite (length_flat_map_const _ _ (length (injs k (remove Nat.eq_dec y0 avail)))).
  - rewrite Nat2Z.inj_mul, IH.
    + pose proof (length_remove_dec y0 avail Nd Hy) as El. rewrite <- El.
      cbn [prod_down]. rewrite !Nat2Z.inj_succ.
      replace (Z.of_nat (length (remove Nat.eq_dec y0 avail)) - Z.of_nat k)%Z
        with (Z.succ (Z.of_nat (length (remove Nat.eq_dec y0 avail))) - Z.succ (Z.of_nat k))%Z by lia. f_equal. lia.
    + now apply NoDup_remove_dec.
    + pose proof (length_remove_dec y0 avail Nd Hy). lia.
  - intros x Hx. rewrite map_length. apply Nat2Z.inj. rewrite !IH; try (now apply NoDup_remove_dec);
      pose proof (length_remove_dec y0 avail Nd Hy); pose proof (length_remove_dec x avail Nd Hx); try lia.
    do 2 f_equal; lia.
Qed.

(** ** machines as lists of actions *)

Definition halt_act : action := Stop 1 R true.
Definition is_stop (a : action) : bool := match a with Stop _ _ _ => true | _ => false end.
Definition gos (n m : nat) : list action :=
  flat_map (fun q => flat_map (fun w => [Go w L q; Go w R q]) (seq 0 m)) (seq 0 n).

Lemma In_gos n m a : In a (gos n m) <-> exists w d q, a = Go w d q /\ w < m /\ q < n.
Proof.
  unfold gos. rewrite in_flat_map. split.
  - intros (q & Hq & H). apply in_flat_map in H. destruct H as (w & Hw & H). apply in_seq in Hq, Hw. simpl in H.
    destruct H as [<-|[<-|[]]]; do 3 eexists; repeat split; lia.
  - intros (w & d & q & -> & Hw & Hq). exists q. split; [apply in_seq; lia|]. apply in_flat_map. exists w. split; [apply in_seq; lia|].
    destruct d; simpl; auto.
Qed.
Lemma length_gos n m : length (gos n m) = n * (m * 2).
Proof.
  unfold gos. rewrite (length_flat_map_const _ _ (m * 2)); [now rewrite seq_length|]. intros q _.
  rewrite (length_flat_map_const _ _ 2); [now rewrite seq_length|]. reflexivity.
Qed.
Lemma NoDup_gos n m : NoDup (gos n m).
Proof.
  unfold gos. apply NoDup_flat_map; [apply seq_NoDup| |].
  - intros q _. apply NoDup_flat_map; [apply seq_NoDup| |].
    + intros w _. repeat constructor; simpl; intuition discriminate.
    + intros a b x _ _ Ha Hb. simpl in *. destruct Ha as [<-|[<-|[]]], Hb as [E|[E|[]]]; congruence.
  - intros a b x _ _ Ha Hb. apply in_flat_map in Ha, Hb. destruct Ha as (? & _ & Ha), Hb as (? & _ & Hb). simpl in *.
    destruct Ha as [<-|[<-|[]]], Hb as [E|[E|[]]]; congruence.
Qed.

Section Fill.
  Variables n m : nat.
  (** all ways to fill the free places, [k] of them with halts *)
  Fixpoint fills (k : nat) (ps : list (option action)) : list (list action) :=
    match ps with
    | [] => match k with 0 => [[]] | _ => [] end
    | Some a :: ps => map (cons a) (fills k ps)
    | None :: ps => flat_map (fun a => map (cons a) (fills k ps)) (gos n m) ++
                    match k with 0 => [] | S k => map (cons halt_act) (fills k ps) end
    end.
  Definition fits (p : option action) (a : action) : Prop :=
    match p with Some b => a = b | None => a = halt_act \/ In a (gos n m) end.
  Fixpoint free_stops (ps : list (option action)) (l : list action) : nat :=
    match ps, l with
    | None :: ps, a :: l => (if is_stop a then 1 else 0) + free_stops ps l
    | Some _ :: ps, _ :: l => free_stops ps l
    | _, _ => 0
    end.
  Definition is_none (p : option action) : bool := match p with None => true | _ => false end.
  Definition places (ps : list (option action)) : nat := length (filter is_none ps).

  Lemma gos_no_stop a : In a (gos n m) -> is_stop a = false.
  Proof. intros H. apply In_gos in H. destruct H as (w & d & q & -> & _). reflexivity. Qed.

  Lemma In_fills ps : forall k l, In l (fills k ps) <-> Forall2 fits ps l /\ free_stops ps l = k.
  Proof.
    induction ps as [|[a|] ps IH]; intros k l; cbn [fills].
    - destruct k; simpl; split.
      + intros [<-|[]]. split; [constructor|reflexivity].
      + intros (H & _). inversion H. auto.
      + intros [].
      + intros (H & E). inversion H; subst. discriminate.
    - rewrite in_map_iff. split.
      + intros (l' & <- & H). apply IH in H. destruct H as (H & E). split; [constructor; auto; reflexivity|exact E].
      + intros (H & E). inversion H as [|? b ? l' Hf Hr]; subst. cbn [fits] in Hf. subst b. exists l'. split; auto. apply IH. auto.
    - rewrite in_app_iff, in_flat_map. split.
      + intros [(a & Ha & H)|H].
        * apply in_map_iff in H. destruct H as (l' & <- & H). apply IH in H. destruct H as (H & E).
          split; [constructor; auto; right; exact Ha|]. cbn [free_stops]. now rewrite (gos_no_stop a Ha).
        * destruct k as [|k]; [destruct H|]. apply in_map_iff in H. destruct H as (l' & <- & H). apply IH in H. destruct H as (H & E).
          split; [constructor; auto; left; reflexivity|]. cbn [free_stops halt_act is_stop]. lia.
      + intros (H & E). inversion H as [|? a ? l' Hf Hr]; subst. cbn [fits] in Hf. cbn [free_stops]. destruct Hf as [-> |Hf].
        * right. cbn [halt_act is_stop]. simpl. apply in_map, IH. auto.
        * left. exists a. split; auto. apply in_map. rewrite (gos_no_stop a Hf). apply IH. auto.
  Qed.
  Lemma NoDup_fills ps : forall k, NoDup (fills k ps).
  Proof.
    induction ps as [|[a|] ps IH]; intros k; cbn [fills].
    - destruct k; repeat constructor. intros [].
    - apply FinFun.Injective_map_NoDup; auto. intros p q; congruence.
    - apply NoDup_app_intro.
      + apply NoDup_flat_map; [apply NoDup_gos| |].
        * intros a _. apply FinFun.Injective_map_NoDup; auto. intros p q; congruence.
        * intros x y l _ _ Hx Hy. apply in_map_iff in Hx, Hy. destruct Hx as (? & <- & _), Hy as (? & E & _). congruence.
      + destruct k; [constructor|]. apply FinFun.Injective_map_NoDup; auto. intros p q; congruence.
      + intros l Hl Hl'. destruct k as [|k]; [destruct Hl'|]. apply in_map_iff in Hl'. destruct Hl' as (l' & <- & _).
        apply in_flat_map in Hl. destruct Hl as (a & Ha & Hl). apply in_map_iff in Hl. destruct Hl as (? & E & _). injection E as -> _.
        apply In_gos in Ha. destruct Ha as (? & ? & ? & E & _). discriminate.
  Qed.
  Lemma length_fills0 ps : Z.of_nat (length (fills 0 ps)) = ((2 * Z.of_nat n * Z.of_nat m) ^ Z.of_nat (places ps))%Z.
  Proof.
    induction ps as [|[a|] ps IH]; cbn [fills]; [reflexivity| |].
    - rewrite map_length, IH. reflexivity.
    - rewrite app_nil_r, (length_flat_map_const _ _ (length (fills 0 ps))) by (intros; apply map_length).
      rewrite Nat2Z.inj_mul, IH, length_gos. unfold places. cbn [filter is_none length]. fold (places ps).
      rewrite Nat2Z.inj_succ, Z.pow_succ_r by lia. rewrite !Nat2Z.inj_mul. ring.
  Qed.
  Lemma length_fills1 ps : Z.of_nat (length (fills 1 ps)) =
    (if Nat.leb 1 (places ps) then Z.of_nat (places ps) * (2 * Z.of_nat n * Z.of_nat m) ^ (Z.of_nat (places ps) - 1) else 0)%Z.
  Proof.
    induction ps as [|[a|] ps IH]; cbn [fills]; [reflexivity| |].
    - rewrite map_length, IH. reflexivity.
    - rewrite app_length, map_length, (length_flat_map_const _ _ (length (fills 1 ps))) by (intros; apply map_length).
      rewrite Nat2Z.inj_add, Nat2Z.inj_mul, IH, length_gos, length_fills0. change (places (None :: ps)) with (S (places ps)).
      cbn [Nat.leb]. destruct (places ps) as [|u]; cbn [Nat.leb].
      + change (Z.of_nat 1 - 1)%Z with 0%Z. change (Z.of_nat 0) with 0%Z. change (Z.of_nat 1) with 1%Z. rewrite Z.pow_0_r. ring.
      + replace (Z.of_nat (S (S u)) - 1)%Z with (Z.of_nat (S u)) by lia. replace (Z.of_nat (S u) - 1)%Z with (Z.of_nat u) by lia.
        rewrite !Nat2Z.inj_succ, Z.pow_succ_r, !Nat2Z.inj_mul by lia. change (Z.of_nat 2) with 2%Z. ring.
  Qed.
End Fill.

(** a machine with [n] states and [m] symbols written as the list of its [n * m] actions *)
Definition machine_of (m : nat) (l : list action) : table := fun i j => nth (i * m + j) l halt_act.
(** the class of [Count.py]: A0 is 1RB, all halts are 1RH, and there is exactly one of them, or at most one *)
Definition in_class (n m : nat) (allow : bool) (l : list action) : Prop :=
  length l = n * m /\ (forall a, In a l -> a = halt_act \/ exists w d q, a = Go w d q /\ w < m /\ q < n) /\
  machine_of m l 0 0 = Go 1 R 1 /\
  (length (filter is_stop l) = 1 \/ allow = true /\ length (filter is_stop l) = 0).
(** the machine is, with the states from 2 on and the symbols from 2 on renamed, the table filled up *)
Definition stands_for (n m : nat) (T M : table) : Prop :=
  exists f g, permutes n f /\ permutes m g /\ f 0 = 0 /\ f 1 = 1 /\ g 0 = 0 /\ g 1 = 1 /\
    forall i j, i < n -> j < m ->
      match T i j with
      | Go w d q => M (f i) (g j) = Go (g w) d (f q)
      | Stop _ _ true => M (f i) (g j) = halt_act
      | Stop _ _ false => True
      end.

(** ** positions *)

Lemma nth_map_seq_default {A B} (f : A -> B) l i d d' : i < length l -> nth i (map f l) d' = f (nth i l d).
Proof. intros H. rewrite (nth_indep _ d' (f d)) by now rewrite map_length. apply map_nth. Qed.

Lemma nth_grid n m i j : i < n -> j < m -> nth (i * m + j) (grid n m) (0, 0) = (i, j).
Proof.
  unfold grid. intros Hi Hj. assert (G : forall k s, i < k -> nth (i * m + j) (list_prod (seq s k) (seq 0 m)) (0, 0) = (s + i, j)).
  { clear Hi n. induction i as [|i IH]; intros k s Hk; (destruct k as [|k]; [lia|]); cbn [seq list_prod].
    - rewrite app_nth1 by (rewrite map_length, seq_length; simpl; lia).
      rewrite (nth_map_seq_default _ _ _ 0) by (rewrite seq_length; simpl; lia). rewrite seq_nth by (simpl; lia). simpl. f_equal. lia.
    - rewrite app_nth2 by (rewrite map_length, seq_length; simpl; lia). rewrite map_length, seq_length.
      replace (S i * m + j - m) with (i * m + j) by (simpl; lia). rewrite IH by lia. f_equal. lia. }
  now rewrite (G n 0 Hi).
Qed.
Lemma length_grid n m : length (grid n m) = n * m.
Proof. unfold grid. now rewrite prod_length, !seq_length. Qed.

Fixpoint pos (x : nat) (l : list nat) : nat :=
  match l with [] => 0 | y :: l => if Nat.eq_dec x y then 0 else S (pos x l) end.
Lemma nth_pos x l : In x l -> nth (pos x l) l 0 = x /\ pos x l < length l.
Proof.
  induction l as [|y l IH]; intros H; [destruct H|]. simpl. destruct (Nat.eq_dec x y); [split; auto; lia|].
  destruct H; [congruence|]. destruct (IH H). split; auto. lia.
Qed.
Lemma pos_nth i l : NoDup l -> i < length l -> pos (nth i l 0) l = i.
Proof.
  intros Nd Hi. destruct (nth_pos (nth i l 0) l (nth_In _ _ Hi)) as (E & H). apply (proj1 (NoDup_nth l 0) Nd); auto.
Qed.

Lemma Forall2_len {A B} (P : A -> B -> Prop) x y : Forall2 P x y -> length x = length y.
Proof. induction 1; simpl; congruence. Qed.
Lemma Forall2_nth {A B} (P : A -> B -> Prop) x y da db : length x = length y ->
  (forall i, i < length x -> P (nth i x da) (nth i y db)) <-> Forall2 P x y.
Proof.
  revert y. induction x as [|a x IH]; intros [|b y] E; simpl in E; try discriminate; split; intros H.
  - constructor.
  - simpl. lia.
  - constructor; [apply (H 0); simpl; lia|]. apply IH; [lia|]. intros i Hi. apply (H (S i)). simpl. lia.
  - inversion H; subst. intros [|i] Hi; simpl; auto. apply IH; auto. simpl in Hi. lia.
Qed.

(** ** the machines of one table *)

Section Table.
  Variables (n m a c : nat) (T : table) (allow : bool).
  Hypothesis Hn : 2 <= a <= n. Hypothesis Hm : 2 <= c <= m.
  Hypothesis T00 : T 0 0 = Go 1 R 1.
  Hypothesis Tgo : forall i j w d q, T i j = Go w d q -> i < a /\ j < c /\ w < c /\ q < a.
  Hypothesis Thalt : forall i j w d, T i j = Stop w d true -> i < a /\ j < c.
  (** the names are fixed by the machine *)
  Hypothesis agree : forall M f1 g1 f2 g2,
    f1 0 = 0 -> g1 0 = 0 -> f2 0 = 0 -> g2 0 = 0 -> sub_renamed f1 g1 false T M -> sub_renamed f2 g2 false T M ->
    (forall i, i < a -> f1 i = f2 i) /\ (forall j, j < c -> g1 j = g2 j).

  Definition names (k used : nat) : list (list nat) := map (fun r => 0 :: 1 :: r) (injs (used - 2) (seq 2 (k - 2))).
  Lemma In_names k used l : 2 <= used <= k ->
    In l (names k used) <-> length l = used /\ NoDup l /\ (forall x, In x l -> x < k) /\ nth 0 l 0 = 0 /\ nth 1 l 0 = 1.
  Proof.
    intros H. unfold names. rewrite in_map_iff. split.
    - intros (r & <- & Hr). apply In_injs in Hr. destruct Hr as (El & Nd & Hi).
      assert (Hb : forall x, In x r -> 2 <= x < k) by (intros x Hx; apply Hi, in_seq in Hx; lia).
      split; [simpl; lia|]. split.
      + constructor; [|constructor; auto]; simpl.
        * intros [E|E]; [discriminate|]. apply Hb in E. lia.
        * intros E. apply Hb in E. lia.
      + split; [|split; reflexivity]. simpl. intros x [<-|[<-|Hx]]; try lia. apply Hb in Hx. lia.
    - destruct l as [|x [|y r]]; intros (El & Nd & Hb & E0 & E1); simpl in *; try lia. subst x y. exists r. split; auto.
      apply In_injs. split; [lia|]. inversion Nd as [|? ? H0 Nd']; subst. inversion Nd' as [|? ? H1 Nd2]; subst. split; auto.
      intros z Hz. apply in_seq. specialize (Hb z (or_intror (or_intror Hz))). simpl in H0.
      destruct z as [|[|z]]; [tauto|tauto|lia].
  Qed.
  Lemma NoDup_names k used : NoDup (names k used).
  Proof. unfold names. apply FinFun.Injective_map_NoDup; [intros p q; congruence|]. apply NoDup_injs, seq_NoDup. Qed.
  Lemma length_names k used : 2 <= used <= k -> Z.of_nat (length (names k used)) = ways k used.
  Proof.
    intros H. unfold names, ways. rewrite map_length, length_injs; [|apply seq_NoDup|rewrite seq_length; lia].
    rewrite seq_length. f_equal. lia.
  Qed.

  (** the part of the machine that the names fix *)
  Definition fixed (so syo : list nat) (ij : nat * nat) : option action :=
    let SO := full_order n so in let SY := full_order m syo in
    match T (pos (fst ij) SO) (pos (snd ij) SY) with
    | Go w d q => Some (Go (nth w SY 0) d (nth q SO 0))
    | Stop _ _ true => Some halt_act
    | Stop _ _ false => None
    end.
  Definition pattern (so syo : list nat) : list (option action) := map (fixed so syo) (grid n m).

  Definition stop_cells : nat := length (filter (fun ij => match T (fst ij) (snd ij) with Stop _ _ true => true | _ => false end) (grid n m)).
  Definition free_cells : nat := length (filter (fun ij => match T (fst ij) (snd ij) with Stop _ _ false => true | _ => false end) (grid n m)).
  Hypothesis Hstop : stop_cells <= 1.

  (** how many halts may be added *)
  Definition added : list nat := if Nat.eqb stop_cells 1 then [0] else 1 :: (if allow then [0] else []).
  Definition machines : list (list action) :=
    flat_map (fun so => flat_map (fun syo => flat_map (fun k => fills n m k (pattern so syo)) added) (names m c)) (names n a).

  Lemma full_names k used so : 2 <= used <= k -> In so (names k used) ->
    let S := full_order k so in NoDup S /\ (forall x, In x S <-> x < k) /\ length S = k /\
      permutes k (fun i => nth i S 0) /\ (forall i, i < used -> nth i S 0 = nth i so 0) /\ nth 0 S 0 = 0 /\ nth 1 S 0 = 1.
  Proof.
    intros H Hso. apply In_names in Hso; auto. destruct Hso as (El & Nd & Hb & E0 & E1).
    destruct (full_order_spec k so Nd Hb) as (A & B & C). simpl. split; auto. split; auto. split; auto.
    split; [now apply nth_permutes|].
    assert (X : forall i, i < used -> nth i (full_order k so) 0 = nth i so 0).
    { intros i Hi. unfold full_order. apply app_nth1. lia. }
    split; auto. rewrite !X by lia. auto.
  Qed.

  Lemma count_grid (P : nat * nat -> bool) so syo : In so (names n a) -> In syo (names m c) ->
    length (filter (fun ij => P (pos (fst ij) (full_order n so), pos (snd ij) (full_order m syo))) (grid n m)) = length (filter P (grid n m)).
  Proof.
    intros Hso Hsy. destruct (full_names n a so Hn Hso) as (A1 & B1 & C1 & D1 & _). destruct (full_names m c syo Hm Hsy) as (A2 & B2 & C2 & D2 & _).
    set (F := fun ij : nat * nat => (pos (fst ij) (full_order n so), pos (snd ij) (full_order m syo))).
    assert (Pm : Permutation (map F (grid n m)) (grid n m)).
    { apply NoDup_Permutation_bis.
      - apply NoDup_map_inj; [|apply NoDup_grid]. intros (i, j) (i', j') H H' E. apply In_grid2 in H, H'. cbn [fst snd F] in *.
        injection E as E1 E2.
        destruct (nth_pos i (full_order n so)) as (X1 & _); [apply B1; tauto|]. destruct (nth_pos i' (full_order n so)) as (X2 & _); [apply B1; tauto|].
        destruct (nth_pos j (full_order m syo)) as (X3 & _); [apply B2; tauto|]. destruct (nth_pos j' (full_order m syo)) as (X4 & _); [apply B2; tauto|].
        congruence.
      - rewrite map_length. apply le_n.
      - intros ij H. apply in_map_iff in H. destruct H as ((i, j) & <- & H). apply In_grid2 in H. apply In_grid2. cbn [fst snd F] in *.
        destruct (nth_pos i (full_order n so)) as (_ & X1); [apply B1; tauto|]. destruct (nth_pos j (full_order m syo)) as (_ & X2); [apply B2; tauto|]. lia. }
    transitivity (length (filter P (map F (grid n m)))).
    - clear. induction (grid n m) as [|ij l IH]; simpl; auto. unfold F at 2. destruct (P _); simpl; congruence.
    - clear -Pm. revert Pm. generalize (map F (grid n m)), (grid n m). intros x y Pm. induction Pm; simpl; auto;
        repeat match goal with |- context[P ?z] => destruct (P z) end; simpl; auto; congruence.
  Qed.
  Lemma places_pattern so syo : In so (names n a) -> In syo (names m c) -> places (pattern so syo) = free_cells.
  Proof.
    intros Hso Hsy. unfold free_cells.
    rewrite <- (count_grid (fun ij => match T (fst ij) (snd ij) with Stop _ _ false => true | _ => false end) so syo Hso Hsy).
    unfold places, pattern. clear. induction (grid n m) as [|ij l IH]; cbn [map filter]; auto. unfold fixed at 1. cbn [fst snd].
    destruct (T (pos (fst ij) (full_order n so)) (pos (snd ij) (full_order m syo))) as [w d q|w d [|]]; cbn [is_none length]; now rewrite IH.
  Qed.
  Lemma stops_pattern so syo l : In so (names n a) -> In syo (names m c) -> Forall2 (fits n m) (pattern so syo) l ->
    length (filter is_stop l) = stop_cells + free_stops (pattern so syo) l.
  Proof.
    intros Hso Hsy. unfold stop_cells.
    rewrite <- (count_grid (fun ij => match T (fst ij) (snd ij) with Stop _ _ true => true | _ => false end) so syo Hso Hsy).
    unfold pattern. clear. revert l. induction (grid n m) as [|ij r IH]; intros l H; inversion H as [|? x ? l' Hf Hr]; subst; [reflexivity|].
    cbn [filter map free_stops]. specialize (IH _ Hr). cbn [fst snd]. unfold fixed at 1. unfold fixed in Hf at 1. cbn [map] in *.
    destruct (T (pos (fst ij) (full_order n so)) (pos (snd ij) (full_order m syo))) as [w d q|w d [|]]; cbn [fits] in Hf.
    - subst x. cbn [is_stop length free_stops]. exact IH.
    - subst x. cbn [is_stop halt_act length free_stops]. rewrite IH. reflexivity.
    - cbn [free_stops fst snd] in *. destruct (is_stop x); cbn [length]; rewrite IH; lia.
  Qed.

  (** filling the pattern is the same as being, renamed, the table filled up *)
  Lemma pattern_fits so syo l : In so (names n a) -> In syo (names m c) ->
    Forall2 (fits n m) (pattern so syo) l <->
    length l = n * m /\ (forall x, In x l -> x = halt_act \/ exists w d q, x = Go w d q /\ w < m /\ q < n) /\
    forall i j, i < n -> j < m ->
      match T i j with
      | Go w d q => machine_of m l (nth i (full_order n so) 0) (nth j (full_order m syo) 0)
                    = Go (nth w (full_order m syo) 0) d (nth q (full_order n so) 0)
      | Stop _ _ true => machine_of m l (nth i (full_order n so) 0) (nth j (full_order m syo) 0) = halt_act
      | Stop _ _ false => True
      end.
  Proof.
    intros Hso Hsy. destruct (full_names n a so Hn Hso) as (A1 & B1 & C1 & D1 & _). destruct (full_names m c syo Hm Hsy) as (A2 & B2 & C2 & D2 & _).
    assert (Ll : length (pattern so syo) = n * m) by (unfold pattern; now rewrite map_length, length_grid).
    assert (Hnth : forall i j, i < n -> j < m -> nth (i * m + j) (pattern so syo) None = fixed so syo (i, j)).
    { intros i j Hi Hj. unfold pattern. rewrite (nth_map_seq_default _ _ _ (0, 0)); [now rewrite nth_grid|].
      rewrite length_grid. apply Nat.lt_le_trans with (S i * m); [simpl; lia|]. apply Nat.mul_le_mono_r. lia. }
    assert (Hidx : forall k, k < n * m -> exists i j, i < n /\ j < m /\ k = i * m + j).
    { intros k Hk. exists (k / m), (k mod m). repeat split.
      - apply Nat.div_lt_upper_bound; lia.
      - apply Nat.mod_upper_bound. lia.
      - rewrite Nat.mul_comm. apply Nat.div_mod. lia. }
    split.
    - intros H. assert (El : length l = n * m) by (rewrite <- Ll; symmetry; eapply Forall2_len; eauto).
      pose proof (proj2 (Forall2_nth (fits n m) (pattern so syo) l None halt_act ltac:(lia)) H) as H'. clear H. rename H' into H. split; auto. split.
      + intros x Hx. apply (In_nth _ _ halt_act) in Hx. destruct Hx as (k & Hk & <-). rewrite El in Hk.
        specialize (H k ltac:(lia)). destruct (Hidx k Hk) as (i & j & Hi & Hj & ->). rewrite Hnth in H by auto. unfold fixed in H. cbn [fst snd] in H.
        revert H. destruct (T (pos i (full_order n so)) (pos j (full_order m syo))) as [w d q|w d [|]] eqn:ET; cbn [fits]; intros H.
        * right. rewrite H. do 3 eexists. split; [reflexivity|]. apply Tgo in ET. split; [apply D2; lia|apply D1; lia].
        * auto.
        * destruct H as [H|H]; auto. right. now apply In_gos.
      + intros i j Hi Hj. set (i' := nth i (full_order n so) 0). set (j' := nth j (full_order m syo) 0).
        assert (Hi' : i' < n) by (apply D1; auto). assert (Hj' : j' < m) by (apply D2; auto).
        specialize (H (i' * m + j')). rewrite Ll in H. specialize (H ltac:(apply Nat.lt_le_trans with (S i' * m); [simpl; lia|apply Nat.mul_le_mono_r; lia])).
        rewrite Hnth in H by auto. unfold fixed in H. cbn [fst snd] in H. unfold i' at 1, j' at 1 in H. rewrite !pos_nth in H by (auto; lia).
        unfold machine_of. fold i' j'. revert H. destruct (T i j) as [w d q|w d [|]]; cbn [fits]; auto.
    - intros (El & Hok & H). apply (proj1 (Forall2_nth (fits n m) (pattern so syo) l None halt_act ltac:(lia))). rewrite Ll. intros k Hk.
      destruct (Hidx k Hk) as (i & j & Hi & Hj & ->). rewrite Hnth by auto. unfold fixed. cbn [fst snd].
      destruct (nth_pos i (full_order n so)) as (X1 & Y1); [now apply B1|]. destruct (nth_pos j (full_order m syo)) as (X2 & Y2); [now apply B2|].
      specialize (H (pos i (full_order n so)) (pos j (full_order m syo)) ltac:(lia) ltac:(lia)). rewrite X1, X2 in H. revert H.
      destruct (T (pos i (full_order n so)) (pos j (full_order m syo))) as [w d q|w d [|]]; cbn [fits]; auto. intros _.
      rewrite In_gos. apply Hok, nth_In. lia.
  Qed.

  Lemma sub_of_fits so syo l : In so (names n a) -> In syo (names m c) -> Forall2 (fits n m) (pattern so syo) l ->
    sub_renamed (fun i => nth i (full_order n so) 0) (fun j => nth j (full_order m syo) 0) false T (machine_of m l).
  Proof.
    intros Hso Hsy H. apply pattern_fits in H; auto. destruct H as (_ & _ & H). intros i j w d q E. pose proof (Tgo _ _ _ _ _ E) as B.
    specialize (H i j ltac:(lia) ltac:(lia)). rewrite E in H. exact H.
  Qed.

  Lemma fits_names so syo so' syo' l : In so (names n a) -> In syo (names m c) -> In so' (names n a) -> In syo' (names m c) ->
    Forall2 (fits n m) (pattern so syo) l -> Forall2 (fits n m) (pattern so' syo') l -> so = so' /\ syo = syo'.
  Proof.
    intros H1 H2 H3 H4 F1 F2. pose proof (sub_of_fits _ _ _ H1 H2 F1) as S1. pose proof (sub_of_fits _ _ _ H3 H4 F2) as S2.
    destruct (full_names n a so Hn H1) as (_ & _ & _ & _ & N1 & Z1 & _). destruct (full_names m c syo Hm H2) as (_ & _ & _ & _ & N2 & Z2 & _).
    destruct (full_names n a so' Hn H3) as (_ & _ & _ & _ & N3 & Z3 & _). destruct (full_names m c syo' Hm H4) as (_ & _ & _ & _ & N4 & Z4 & _).
    destruct (agree (machine_of m l) (fun i => nth i (full_order n so) 0) (fun j => nth j (full_order m syo) 0)
      (fun i => nth i (full_order n so') 0) (fun j => nth j (full_order m syo') 0) Z1 Z2 Z3 Z4 S1 S2) as (A & B).
    apply In_names in H1, H2, H3, H4; auto. split; apply (nth_ext _ _ 0 0); try (destruct H1, H2, H3, H4; congruence).
    - intros i Hi. assert (i < a) by (destruct H1; lia). rewrite <- N1, <- N3 by auto. auto.
    - intros i Hi. assert (i < c) by (destruct H2; lia). rewrite <- N2, <- N4 by auto. auto.
  Qed.

  Lemma NoDup_machines : NoDup machines.
  Proof.
    unfold machines. apply NoDup_flat_map; [apply NoDup_names| |].
    - intros so Hso. apply NoDup_flat_map; [apply NoDup_names| |].
      + intros syo Hsy. apply NoDup_flat_map.
        * unfold added. destruct (Nat.eqb stop_cells 1); [|destruct allow]; repeat constructor; simpl; intuition discriminate.
        * intros k _. apply NoDup_fills.
        * intros k k' l _ _ H H'. apply In_fills in H, H'. destruct H, H'. congruence.
      + intros syo syo' l Hs Hs' H H'. apply in_flat_map in H, H'. destruct H as (k & _ & H), H' as (k' & _ & H'). apply In_fills in H, H'.
        now apply (fits_names so syo so syo' l); try tauto.
    - intros so so' l Hs Hs' H H'. apply in_flat_map in H, H'. destruct H as (syo & Hy & H), H' as (syo' & Hy' & H').
      apply in_flat_map in H, H'. destruct H as (k & _ & H), H' as (k' & _ & H'). apply In_fills in H, H'.
      now apply (fits_names so syo so' syo' l); try tauto.
  Qed.

  Lemma In_machines l : In l machines <-> in_class n m allow l /\ stands_for n m T (machine_of m l).
  Proof.
    unfold machines. rewrite in_flat_map. split.
    - intros (so & Hso & H). apply in_flat_map in H. destruct H as (syo & Hsy & H). apply in_flat_map in H. destruct H as (k & Hk & H).
      apply In_fills in H. destruct H as (F & Ek). pose proof (stops_pattern so syo l Hso Hsy F) as Es.
      destruct (full_names n a so Hn Hso) as (A1 & B1 & C1 & D1 & N1 & Z1 & O1). destruct (full_names m c syo Hm Hsy) as (A2 & B2 & C2 & D2 & N2 & Z2 & O2).
      pose proof F as F'. apply pattern_fits in F'; auto. destruct F' as (El & Hok & Hcell). split.
      + split; auto. split; auto. split.
        * specialize (Hcell 0 0 ltac:(lia) ltac:(lia)). rewrite T00, Z1, Z2, O1, O2 in Hcell. exact Hcell.
        * rewrite Es, Ek. unfold added in Hk. destruct (Nat.eqb_spec stop_cells 1) as [E|E].
          -- destruct Hk as [<-|[]]. left. lia.
          -- assert (stop_cells = 0) as -> by lia. destruct Hk as [<-|Hk]; [left; lia|]. right.
             destruct allow; [|destruct Hk]. destruct Hk as [<-|[]]. auto.
      + exists (fun i => nth i (full_order n so) 0), (fun j => nth j (full_order m syo) 0). repeat (split; [assumption|]). exact Hcell.
    - intros ((El & Hok & H0 & Hs) & (f & g & Pf & Pg & F0 & F1 & G0 & G1 & Hcell)).
      assert (Hso : In (map f (seq 0 a)) (names n a)).
      { apply In_names; auto. rewrite map_length, seq_length. split; auto. split; [|split; [|split]].
        - apply NoDup_map_inj; [|apply seq_NoDup]. intros x y Hx Hy E. apply in_seq in Hx, Hy. apply Pf; auto; lia.
        - intros x Hx. apply in_map_iff in Hx. destruct Hx as (y & <- & Hy). apply in_seq in Hy. apply Pf. lia.
        - rewrite (nth_map_seq_default _ _ _ 0) by (rewrite seq_length; lia). rewrite seq_nth by lia. exact F0.
        - rewrite (nth_map_seq_default _ _ _ 0) by (rewrite seq_length; lia). rewrite seq_nth by lia. exact F1. }
      assert (Hsy : In (map g (seq 0 c)) (names m c)).
      { apply In_names; auto. rewrite map_length, seq_length. split; auto. split; [|split; [|split]].
        - apply NoDup_map_inj; [|apply seq_NoDup]. intros x y Hx Hy E. apply in_seq in Hx, Hy. apply Pg; auto; lia.
        - intros x Hx. apply in_map_iff in Hx. destruct Hx as (y & <- & Hy). apply in_seq in Hy. apply Pg. lia.
        - rewrite (nth_map_seq_default _ _ _ 0) by (rewrite seq_length; lia). rewrite seq_nth by lia. exact G0.
        - rewrite (nth_map_seq_default _ _ _ 0) by (rewrite seq_length; lia). rewrite seq_nth by lia. exact G1. }
      exists (map f (seq 0 a)). split; auto. apply in_flat_map. exists (map g (seq 0 c)). split; auto.
      destruct (full_names n a _ Hn Hso) as (_ & _ & _ & _ & N1 & _). destruct (full_names m c _ Hm Hsy) as (_ & _ & _ & _ & N2 & _).
      assert (X1 : forall i, i < a -> nth i (full_order n (map f (seq 0 a))) 0 = f i).
      { intros i Hi. rewrite N1 by auto. rewrite (nth_map_seq_default _ _ _ 0) by (rewrite seq_length; lia). now rewrite seq_nth. }
      assert (X2 : forall j, j < c -> nth j (full_order m (map g (seq 0 c))) 0 = g j).
      { intros i Hi. rewrite N2 by auto. rewrite (nth_map_seq_default _ _ _ 0) by (rewrite seq_length; lia). now rewrite seq_nth. }
      assert (F : Forall2 (fits n m) (pattern (map f (seq 0 a)) (map g (seq 0 c))) l).
      { apply pattern_fits; auto. split; auto. split; auto. intros i j Hi Hj. specialize (Hcell i j Hi Hj).
        destruct (T i j) as [w d q|w d [|]] eqn:ET; auto.
        - apply Tgo in ET. rewrite !X1, !X2 by tauto. exact Hcell.
        - apply Thalt in ET. rewrite !X1, !X2 by tauto. exact Hcell. }
      pose proof (stops_pattern _ _ l Hso Hsy F) as Es. apply in_flat_map.
      exists (free_stops (pattern (map f (seq 0 a)) (map g (seq 0 c))) l). split; [|now apply In_fills].
      unfold added. destruct (Nat.eqb_spec stop_cells 1) as [E|E].
      + left. destruct Hs as [Hs|(_ & Hs)]; lia.
      + assert (stop_cells = 0) by lia. destruct Hs as [Hs|(Ha & Hs)]; [left; lia|]. right. rewrite Ha. left. lia.
  Qed.

  Lemma length_machines : Z.of_nat (length machines) =
    (ways m c * ways n a *
     (if Nat.eqb stop_cells 1 then (2 * Z.of_nat n * Z.of_nat m) ^ Z.of_nat free_cells
      else mult (2 * Z.of_nat n * Z.of_nat m) allow free_cells))%Z.
  Proof.
    set (K := (if Nat.eqb stop_cells 1 then (2 * Z.of_nat n * Z.of_nat m) ^ Z.of_nat free_cells
      else mult (2 * Z.of_nat n * Z.of_nat m) allow free_cells)%Z).
    assert (G : forall so syo, In so (names n a) -> In syo (names m c) ->
      length (flat_map (fun k => fills n m k (pattern so syo)) added) = Z.to_nat K).
    { intros so syo Hso Hsy. apply Nat2Z.inj.
      assert (E : Z.of_nat (length (flat_map (fun k => fills n m k (pattern so syo)) added)) = K).
      { unfold added, K. destruct (Nat.eqb stop_cells 1); [|destruct allow eqn:Ea]; cbn [flat_map]; rewrite ?app_nil_r, ?app_length, ?Nat2Z.inj_add, ?length_fills0, ?length_fills1,
          (places_pattern so syo Hso Hsy); unfold mult; try reflexivity. ring. }
      rewrite <- E. now rewrite Nat2Z.id. }
    assert (HK : (0 <= K)%Z).
    { unfold K, mult. pose proof (Z.pow_nonneg (2 * Z.of_nat n * Z.of_nat m) (Z.of_nat free_cells) ltac:(lia)).
      pose proof (Z.pow_nonneg (2 * Z.of_nat n * Z.of_nat m) (Z.of_nat free_cells - 1) ltac:(lia)).
      destruct (Nat.eqb stop_cells 1), (Nat.leb 1 free_cells), allow; nia. }
    unfold machines. rewrite (length_flat_map_const _ _ (length (names m c) * Z.to_nat K)).
    - rewrite !Nat2Z.inj_mul, !length_names by auto. rewrite Z2Nat.id by auto. ring.
    - intros so Hso. apply length_flat_map_const. intros syo Hsy. auto.
  Qed.
End Table.
