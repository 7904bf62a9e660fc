(** * Reference semantics: Turing machines on a tape indexed by the integers.

    This file is the specification everything else is measured against.  It
    does not mention the Python code.  A machine is a total transition
    function; a cell is either a running transition ([Go]) or a stopping one
    ([Stop], which still writes and moves, as in the usual "1RH" convention;
    the flag tells explicit halts from undefined cells). *)
Require Import ZArith List Lia Bool Arith.
Import ListNotations.
Open Scope Z_scope.

Inductive dir := L | R.

Definition opp (d : dir) : dir := match d with L => R | R => L end.
Definition dz (d : dir) : Z := match d with L => -1 | R => 1 end.
Definition dir_eqb (a b : dir) : bool :=
  match a, b with L, L | R, R => true | _, _ => false end.

Inductive action :=
| Go   (w : nat) (d : dir) (q : nat)
| Stop (w : nat) (d : dir) (explicit : bool).

Definition table := nat -> nat -> action.     (* state -> symbol -> action *)

Record config := Cfg { st : nat; hd : Z; tp : Z -> nat }.

Definition put (t : Z -> nat) (z : Z) (v : nat) : Z -> nat :=
  fun x => if x =? z then v else t x.

Definition step (M : table) (c : config) : option config :=
  match M (st c) (tp c (hd c)) with
  | Go w d q => Some (Cfg q (hd c + dz d) (put (tp c) (hd c) w))
  | Stop _ _ _ => None
  end.

(** [steps M n c = Some c']: [n] running transitions lead from [c] to [c']. *)
Fixpoint steps (M : table) (n : nat) (c : config) : option config :=
  match n with
  | O => Some c
  | S n => match step M c with Some c' => steps M n c' | None => None end
  end.

Definition initial : config := Cfg 0 0 (fun _ => 0%nat).

(** [halts_at M c n q s b t]: from [c] the [n]-th transition is the stopping
    one; it was taken in state [q] reading symbol [s]; [b] tells whether the
    cell was an explicit halt; [t] is the final tape. *)
Definition halts_at (M : table) (c : config) (n : nat) (q s : nat) (b : bool)
           (t : Z -> nat) : Prop :=
  exists m c' w d, n = S m /\ steps M m c = Some c' /\
    q = st c' /\ s = tp c' (hd c') /\ M q s = Stop w d b /\
    forall z, t z = put (tp c') (hd c') w z.

Definition nonhalting (M : table) (c : config) : Prop :=
  forall n, steps M n c <> None.

(** number of nonzero cells *)
Definition score (t : Z -> nat) (n : nat) : Prop :=
  exists l : list Z, NoDup l /\ (forall z, In z l <-> t z <> 0%nat) /\ length l = n.

Definition ceq (c c' : config) : Prop :=
  st c = st c' /\ hd c = hd c' /\ forall z, tp c z = tp c' z.

Definition oeq (a b : option config) : Prop :=
  match a, b with
  | Some c, Some c' => ceq c c'
  | None, None => True
  | _, _ => False
  end.

(** ** Elementary facts *)

Lemma dir_eqb_eq a b : dir_eqb a b = true <-> a = b.
Proof. destruct a, b; simpl; intuition congruence. Qed.

Lemma dir_eqb_refl a : dir_eqb a a = true.
Proof. now destruct a. Qed.

Lemma opp_opp d : opp (opp d) = d.
Proof. now destruct d. Qed.

Lemma put_same t z v : put t z v z = v.
Proof. unfold put. now rewrite Z.eqb_refl. Qed.

Lemma put_other t z v x : x <> z -> put t z v x = t x.
Proof. intros H. unfold put. now rewrite (proj2 (Z.eqb_neq x z) H). Qed.

Lemma ceq_refl c : ceq c c.
Proof. repeat split. Qed.

Lemma ceq_sym c c' : ceq c c' -> ceq c' c.
Proof. intros (?&?&H). repeat split; auto. Qed.

Lemma ceq_trans a b c : ceq a b -> ceq b c -> ceq a c.
Proof.
  intros (?&?&H1) (?&?&H2). split; [congruence | split; [congruence|]].
  intros z. now rewrite H1.
Qed.

Lemma step_ceq M c c' : ceq c c' -> oeq (step M c) (step M c').
Proof.
  intros (Hs & Hh & Ht). unfold step. rewrite Hs, Hh, Ht.
  destruct (M (st c') (tp c' (hd c'))); simpl; auto.
  repeat split; simpl; auto.
  intros z. unfold put. rewrite Ht. reflexivity.
Qed.

Lemma steps_ceq M n : forall c c', ceq c c' -> oeq (steps M n c) (steps M n c').
Proof.
  induction n as [|n IH]; simpl; intros c c' H; auto.
  pose proof (step_ceq M c c' H) as Hs.
  destruct (step M c), (step M c'); simpl in Hs; try contradiction; auto.
Qed.

Lemma steps_ceq_some M n c c' d :
  ceq c c' -> steps M n c = Some d -> exists d', steps M n c' = Some d' /\ ceq d d'.
Proof.
  intros H E. pose proof (steps_ceq M n c c' H) as Hs. rewrite E in Hs.
  destruct (steps M n c'); simpl in Hs; try contradiction. eauto.
Qed.

Lemma steps_add M n : forall m c,
  steps M (n + m) c =
  match steps M n c with Some c' => steps M m c' | None => None end.
Proof.
  induction n as [|n IH]; simpl; intros m c; auto.
  destruct (step M c); auto.
Qed.

Lemma steps_S M n c :
  steps M (S n) c = match steps M n c with Some c' => step M c' | None => None end.
Proof.
  replace (S n) with (n + 1)%nat by lia. rewrite steps_add.
  destruct (steps M n c); auto. simpl. destruct (step M c0); auto.
Qed.

Lemma steps_le M n m c c' :
  (m <= n)%nat -> steps M n c = Some c' -> exists d, steps M m c = Some d.
Proof.
  intros H E. replace n with (m + (n - m))%nat in E by lia.
  rewrite steps_add in E. destruct (steps M m c); [eauto | discriminate].
Qed.

Lemma steps_compose M n m c d e :
  steps M n c = Some d -> steps M m d = Some e -> steps M (n + m) c = Some e.
Proof. intros H1 H2. rewrite steps_add, H1. exact H2. Qed.

(** state [q] is entered again and again *)
Definition recurs (M : table) (c : config) (q : nat) : Prop :=
  forall N, exists n d, (N <= n)%nat /\ steps M n c = Some d /\ st d = q.

Lemma recurs_steps M n c d q : steps M n c = Some d -> (recurs M c q <-> recurs M d q).
Proof.
  intros E. split; intros H N.
  - destruct (H (n + N)%nat) as (m & e & Hm & Ee & Hq). exists (m - n)%nat, e.
    split; [lia|]. split; auto. replace m with (n + (m - n))%nat in Ee by lia.
    now rewrite steps_add, E in Ee.
  - destruct (H N) as (m & e & Hm & Ee & Hq). exists (n + m)%nat, e.
    split; [lia|]. split; auto. now rewrite steps_add, E.
Qed.

(** an invariant that is reestablished again and again, always visiting the
    states [l], proves that exactly these recur *)
Lemma recurs_invariant M (P : config -> Prop) (l : list nat) :
  (forall c, P c -> exists n d, (0 < n)%nat /\ steps M n c = Some d /\ P d /\
     forall q, In q l <-> exists i e, (i < n)%nat /\ steps M i c = Some e /\ st e = q) ->
  forall c, P c -> forall q, In q l <-> recurs M c q.
Proof.
  intros H c Hc q. split.
  - intros Hq N.
    assert (G : exists n d, (N <= n)%nat /\ steps M n c = Some d /\ P d).
    { clear Hq. induction N as [|N (n & d & Hn & Ed & Pd)].
      - exists 0%nat, c. simpl. auto.
      - destruct (H d Pd) as (k & e & Hk & Ee & Pe & _). exists (n + k)%nat, e.
        split; [lia|]. split; auto. eapply steps_compose; eauto. }
    destruct G as (n & d & Hn & Ed & Pd). destruct (H d Pd) as (k & e & _ & _ & _ & Hs).
    apply Hs in Hq. destruct Hq as (i & f & _ & Ef & Hf). exists (n + i)%nat, f.
    split; [lia|]. split; auto. eapply steps_compose; eauto.
  - intros R. destruct (R 0%nat) as (n & e & _ & Ee & He). clear R. revert c Hc Ee.
    induction n as [n IH] using lt_wf_ind. intros c Hc Ee.
    destruct (H c Hc) as (k & d & Hk & Ed & Pd & Hs).
    destruct (Nat.lt_ge_cases n k) as [Hlt|Hge].
    + apply Hs. eauto.
    + apply (IH (n - k)%nat ltac:(lia) d Pd).
      replace n with (k + (n - k))%nat in Ee by lia. now rewrite steps_add, Ed in Ee.
Qed.

Lemma nonhalting_steps M n c d :
  steps M n c = Some d -> nonhalting M d -> nonhalting M c.
Proof.
  intros E H k Hk.
  destruct (le_lt_dec k n).
  - destruct (steps_le M n k c d l E) as [e He]. congruence.
  - replace k with (n + (k - n))%nat in Hk by lia.
    rewrite steps_add, E in Hk. now apply (H (k - n)%nat).
Qed.

Lemma nonhalting_ceq M c c' : ceq c c' -> nonhalting M c -> nonhalting M c'.
Proof.
  intros H N n E. apply (N n). pose proof (steps_ceq M n c c' H) as Hs.
  rewrite E in Hs. destruct (steps M n c); simpl in Hs; auto. contradiction.
Qed.

Lemma nonhalting_unbounded M c :
  (forall n, exists m d, (n <= m)%nat /\ steps M m c = Some d) -> nonhalting M c.
Proof.
  intros H n E. destruct (H n) as (m & d & Hle & Hm).
  destruct (steps_le M m n c d Hle Hm) as [e He]. congruence.
Qed.

(** A set of configurations from which one can always run at least one more
    step and come back into the set is non-halting. *)
Lemma nonhalting_invariant M (P : config -> Prop) :
  (forall c, P c -> exists n d, (0 < n)%nat /\ steps M n c = Some d /\ P d) ->
  forall c, P c -> nonhalting M c.
Proof.
  intros H c Hc. apply nonhalting_unbounded. intros n. revert c Hc.
  induction n as [|n IH]; intros c Hc.
  - exists O, c. auto.
  - destruct (H c Hc) as (k & d & Hk & E & Hd).
    destruct (IH d Hd) as (m & e & Hle & Em).
    exists (k + m)%nat, e. split; [lia|]. eapply steps_compose; eauto.
Qed.

(** As above, but a member may also be known to run forever. *)
Lemma nonhalting_invariant_or M (P : config -> Prop) :
  (forall c, P c -> nonhalting M c \/
                    exists n d, (0 < n)%nat /\ steps M n c = Some d /\ P d) ->
  forall c, P c -> nonhalting M c.
Proof.
  intros H c Hc. apply nonhalting_unbounded. intros n. revert c Hc.
  induction n as [|n IH]; intros c Hc.
  - exists O, c. auto.
  - destruct (H c Hc) as [N | (k & d & Hk & E & Hd)].
    + specialize (N (S n)). destruct (steps M (S n) c) eqn:E; [|congruence].
      exists (S n), c0. auto.
    + destruct (IH d Hd) as (m & e & Hle & Em).
      exists (k + m)%nat, e. split; [lia|]. eapply steps_compose; eauto.
Qed.

Lemma halts_not_nonhalting M c n q s b t :
  halts_at M c n q s b t -> ~ nonhalting M c.
Proof.
  intros (m & c' & w & d & -> & E & -> & -> & HM & _) N.
  apply (N (S m)). rewrite steps_S, E. unfold step. now rewrite HM.
Qed.

Lemma halts_at_steps M c k d n q s b t :
  steps M k c = Some d -> halts_at M d n q s b t -> halts_at M c (k + n) q s b t.
Proof.
  intros E (m & c' & w & d' & -> & Em & -> & -> & HM & Ht).
  exists (k + m)%nat, c', w, d'. repeat split; auto.
  - eapply steps_compose; eauto.
Qed.

(** halting time, cell and final tape are unique *)
Lemma halts_at_fun M c n q s b t n' q' s' b' t' :
  halts_at M c n q s b t -> halts_at M c n' q' s' b' t' ->
  n = n' /\ q = q' /\ s = s' /\ b = b' /\ forall z, t z = t' z.
Proof.
  intros (m & e & w & d & -> & E & -> & -> & HM & Ht)
         (m' & e' & w' & d' & -> & E' & -> & -> & HM' & Ht').
  assert (A : forall a b x y, (a < b)%nat -> steps M a c = Some x -> steps M b c = Some y ->
              exists z, step M x = Some z).
  { intros a b0 x y Hl Hx Hy.
    destruct (steps_le M b0 (S a) c y Hl Hy) as [z Hz].
    rewrite steps_S, Hx in Hz. eauto. }
  destruct (Nat.lt_trichotomy m m') as [Hl | [-> | Hl]].
  - destruct (A _ _ _ _ Hl E E') as [z Hz]. unfold step in Hz. rewrite HM in Hz. discriminate.
  - rewrite E in E'. injection E' as <-. rewrite HM in HM'. injection HM' as <- <- <-.
    repeat split; auto. intros z. now rewrite Ht, Ht'.
  - destruct (A _ _ _ _ Hl E' E) as [z Hz]. unfold step in Hz. rewrite HM' in Hz. discriminate.
Qed.

Lemma score_fun t n m : score t n -> score t m -> n = m.
Proof.
  intros (l & Hl & Il & <-) (k & Hk & Ik & <-).
  apply Nat.le_antisymm; apply NoDup_incl_length; auto; intros z Hz.
  - now apply Ik, Il.
  - now apply Il, Ik.
Qed.

Lemma score_ext t t' n : (forall z, t z = t' z) -> score t n -> score t' n.
Proof.
  intros H (l & Hl & Il & <-). exists l. repeat split; auto.
  - intros Hz. rewrite <- H. now apply Il.
  - intros Hz. apply Il. now rewrite H.
Qed.

(** translation of tapes *)
Definition shift (k : Z) (c : config) : config :=
  Cfg (st c) (hd c + k) (fun z => tp c (z - k)).

Lemma step_shift M k c :
  oeq (step M (shift k c)) (option_map (shift k) (step M c)).
Proof.
  unfold step, shift; simpl. replace (hd c + k - k) with (hd c) by lia.
  destruct (M (st c) (tp c (hd c))); simpl; auto.
  repeat split; simpl; try lia.
  intros z. unfold put.
  destruct (z =? hd c + k) eqn:E1, (z - k =? hd c) eqn:E2; auto.
  - apply Z.eqb_eq in E1. apply Z.eqb_neq in E2. lia.
  - apply Z.eqb_neq in E1. apply Z.eqb_eq in E2. lia.
Qed.

Lemma shift_ceq k c c' : ceq c c' -> ceq (shift k c) (shift k c').
Proof.
  intros (?&?&H). repeat split; simpl; auto. lia.
Qed.

Lemma steps_shift M k n : forall c,
  oeq (steps M n (shift k c)) (option_map (shift k) (steps M n c)).
Proof.
  induction n as [|n IH]; simpl; intros c.
  - apply ceq_refl.
  - pose proof (step_shift M k c) as H.
    destruct (step M (shift k c)) eqn:E1, (step M c) eqn:E2; simpl in *; try contradiction; auto.
    pose proof (steps_ceq M n _ _ H) as H1. specialize (IH c1).
    destruct (steps M n c0), (steps M n (shift k c1)); simpl in *; try contradiction;
      destruct (steps M n c1); simpl in *; try contradiction; auto.
    eapply ceq_trans; eauto.
Qed.
