(** * Properties C10 - C13: run-length tape and accelerated simulator *)
Require Import ZArith List Lia Bool Arith.
From Verif Require Import Spec_TM M_Turing_Machine P_Stream P_SimLimited P_Macro P_Repeat P_Quint
     P_Compute M_Tape M_Simulator P_Tape P_Simulator M_Settings P_Settings.
From Verif Require Prop_Macro.
Import ListNotations.
Open Scope Z_scope.

(** ** C10 *)

(** Cell [i] (counted from the head outwards) of a half tape carries [x]. *)
Inductive written {Sym} : list (blk Z Sym) -> nat -> Sym -> Prop :=
| w_inf a h i : written (Blk a None :: h) i a
| w_here a z h i : (i < Z.to_nat z)%nat -> written (Blk a (Some z) :: h) i a
| w_there a z h i x : written h i x -> written (Blk a (Some z) :: h) (Z.to_nat z + i) x.

(** Position 0 is the first cell to the right of the head's gap, -1 the first to
    its left.  The head reads position 0 facing right and -1 facing left. *)
Definition shows_at {Sym} (t : ctape Z Sym) (p : Z) (x : Sym) : Prop :=
  if p <? 0 then written (ct_l t) (Z.to_nat (- p - 1)) x else written (ct_r t) (Z.to_nat p) x.
Definition read_pos (d : dir) : Z := match d with R => 0 | L => -1 end.

(** A half tape: blocks of positive length, then an endless block of blanks. *)
Definition good_tape {Sym} (blank : Sym) (t : ctape Z Sym) : Prop :=
  forall h, h = ct_l t \/ h = ct_r t ->
  exists bs, h = bs ++ [Blk blank None] /\
             Forall (fun b => exists z, k_num b = Some z /\ 0 < z) bs.

Section C10.
  Context {Sym : Type} (eqb : Sym -> Sym -> bool) (blank : Sym).

  Lemma hwf_iff h : hwf blank h <-> exists bs, h = bs ++ [Blk blank None] /\
             Forall (fun b => exists z, k_num b = Some z /\ 0 < z) bs.
  Proof.
    split.
    - induction 1 as [|s z h Hz H (bs & -> & IH)].
      + exists []. split; auto.
      + exists (Blk s (Some z) :: bs). split; auto. constructor; auto. exists z. auto.
    - intros (bs & -> & H). induction H as [|b bs (z & Hz & Hp) H IH]; simpl; [constructor|].
      destruct b as [s n]. simpl in Hz. subst n. now constructor.
  Qed.
  Lemma good_twf t : good_tape blank t <-> twf blank t.
  Proof.
    split.
    - intros H. split; apply hwf_iff; apply H; auto.
    - intros [H1 H2] h [-> | ->]; now apply hwf_iff.
  Qed.

  Lemma written_hden h : hwf blank h -> forall i x, written h i x <-> hden blank h i = x.
  Proof.
    induction 1 as [|s z h Hz H IH]; intros i x; simpl.
    - split; [intros W; inversion W; auto|intros <-; constructor].
    - unfold sapp. split.
      + intros W. inversion W; subst.
        * rewrite nth_error_repeat by assumption. reflexivity.
        * assert (N : nth_error (repeat s (Z.to_nat z)) (Z.to_nat z + i0) = None)
            by (apply nth_error_None; rewrite repeat_length; lia).
          rewrite N, repeat_length. replace (Z.to_nat z + i0 - Z.to_nat z)%nat with i0 by lia.
          now apply IH.
      + destruct (le_lt_dec (Z.to_nat z) i) as [L|L].
        * assert (N : nth_error (repeat s (Z.to_nat z)) i = None)
            by (apply nth_error_None; rewrite repeat_length; lia).
          rewrite N, repeat_length. intros E.
          replace i with (Z.to_nat z + (i - Z.to_nat z))%nat by lia. constructor. now apply IH.
        * rewrite nth_error_repeat by assumption. intros <-. now constructor.
  Qed.

  Definition cellC {St} (C : dcfg Sym St) (p : Z) : Sym :=
    if p <? 0 then d_l C (Z.to_nat (- p - 1)) else d_r C (Z.to_nat p).
  Lemma shows_cell {St} t (s : St) p x : twf blank t ->
    (shows_at t p x <-> cellC (tden blank t s) p = x).
  Proof.
    intros [W1 W2]. unfold shows_at, cellC; simpl.
    destruct (p <? 0); now apply written_hden.
  Qed.
  Lemma cellC_ext {St} (C C' : dcfg Sym St) p : deq C C' -> cellC C p = cellC C' p.
  Proof. intros (H1 & H2 & _). unfold cellC. destruct (p <? 0); auto. Qed.

  Lemma scons_z (a : Sym) s i : scons a s i = if Nat.eqb i 0 then a else s (i - 1)%nat.
  Proof. destruct i; simpl; auto. now rewrite Nat.sub_0_r. Qed.

  Definition gap (d d' : dir) : Z :=
    match d, d' with R, R => 1 | L, L => -1 | _, _ => 0 end.
  Lemma cellC_apply {St} (C : dcfg Sym St) a s d p :
    cellC (apply_t C a s d) p =
    if p + gap (d_dir C) d =? read_pos (d_dir C) then a else cellC C (p + gap (d_dir C) d).
  Proof.
    unfold cellC, apply_t, gap, read_pos, stl. destruct (d_dir C), d; simpl; rewrite ?scons_z.
    all: repeat match goal with
         | |- context[?x <? ?y] => destruct (Z.ltb_spec x y)
         | |- context[?x =? ?y] => destruct (Z.eqb_spec x y)
         | |- context[Nat.eqb ?x ?y] => destruct (Nat.eqb_spec x y)
         end; try lia; try reflexivity; f_equal; lia.
  Qed.

  Lemma cellC_chain {St} k a : forall (C : dcfg Sym St) p,
    cellC (chain_t k a C) p =
    match d_dir C with
    | R => if (0 <=? p + Z.of_nat k) && (p <? 0) then a else cellC C (p + Z.of_nat k)
    | L => if (p - Z.of_nat k <? 0) && (0 <=? p) then a else cellC C (p - Z.of_nat k)
    end.
  Proof.
    induction k as [|k IH]; intros C p; simpl chain_t.
    - destruct (d_dir C).
      + destruct (Z.ltb_spec (p - Z.of_nat 0) 0), (Z.leb_spec 0 p); simpl; try lia;
          f_equal; lia.
      + destruct (Z.leb_spec 0 (p + Z.of_nat 0)), (Z.ltb_spec p 0); simpl; try lia; f_equal; lia.
    - rewrite IH.
      assert (E : d_dir (apply_t C a (d_st C) (d_dir C)) = d_dir C)
        by (unfold apply_t; destruct (d_dir C); reflexivity).
      rewrite E. rewrite !cellC_apply. unfold gap, read_pos. destruct (d_dir C).
      + repeat match goal with
         | |- context[?x <? ?y] => destruct (Z.ltb_spec x y)
         | |- context[?x <=? ?y] => destruct (Z.leb_spec x y)
         | |- context[?x =? ?y] => destruct (Z.eqb_spec x y)
         end; simpl; try lia; try reflexivity; f_equal; lia.
      + repeat match goal with
         | |- context[?x <? ?y] => destruct (Z.ltb_spec x y)
         | |- context[?x <=? ?y] => destruct (Z.leb_spec x y)
         | |- context[?x =? ?y] => destruct (Z.eqb_spec x y)
         end; simpl; try lia; try reflexivity; f_equal; lia.
  Qed.

  Hypothesis eqb_eq : forall a b, eqb a b = true <-> a = b.

  (** A single move succeeds, replaces exactly the read cell by the new symbol,
      leaves the head on the side it moves to, and keeps every block positive. *)
  Theorem C10_single_move :
    forall t a d, good_tape blank t ->
    exists t', apply_single_move zops eqb t a d = Some t' /\ good_tape blank t' /\ ct_dir t' = d /\
      exists g, (ct_dir t = R -> d = R -> g = 1) /\ (ct_dir t = L -> d = L -> g = -1) /\
                (ct_dir t <> d -> g = 0) /\
      forall p x, shows_at t' p x <->
        if p + g =? read_pos (ct_dir t) then x = a else shows_at t (p + g) x.
  Proof.
    intros t a d W. apply good_twf in W.
    destruct (single_move_ok eqb blank eqb_eq t a d tt tt W) as (t' & E & W' & Ed & D).
    exists t'. split; [exact E|]. split; [now apply good_twf|]. split; [exact Ed|].
    exists (gap (ct_dir t) d). split; [intros -> ->; reflexivity|]. split; [intros -> ->; reflexivity|].
    split; [unfold gap; destruct (ct_dir t), d; congruence|].
    intros p x. rewrite (shows_cell t' tt p x W'), (cellC_ext _ _ p D), cellC_apply.
    change (d_dir (tden blank t tt)) with (ct_dir t).
    destruct (_ =? _); [split; congruence|]. now rewrite (shows_cell t tt _ x W).
  Qed.

  (** A chain move over a block of [z] equal symbols replaces exactly these [z]
      cells and puts the head behind them. *)
  Theorem C10_chain_move :
    forall t a b z rest, good_tape blank t -> half (ct_dir t) t = Blk b (Some z) :: rest ->
    exists t', apply_chain_move zops eqb t a = Some (t', Some z) /\ good_tape blank t' /\ 0 < z /\
      ct_dir t' = ct_dir t /\
      forall p x, shows_at t' p x <->
        match ct_dir t with
        | R => if (0 <=? p + z) && (p + z <? z) then x = a else shows_at t (p + z) x
        | L => if (- z <=? p - z) && (p - z <? 0) then x = a else shows_at t (p - z) x
        end.
  Proof.
    intros t a b z rest W E. apply good_twf in W.
    destruct (chain_move_fin eqb blank eqb_eq t a tt b z rest W E) as (t' & E' & W' & Hz & Ed & D).
    exists t'. split; [exact E'|]. split; [now apply good_twf|]. split; [exact Hz|].
    split; [exact Ed|]. intros p x.
    rewrite (shows_cell t' tt p x W'), (cellC_ext _ _ p D), cellC_chain.
    change (d_dir (tden blank t tt)) with (ct_dir t). rewrite Z2Nat.id by lia.
    destruct (ct_dir t).
    - replace (- z <=? p - z) with (0 <=? p)
        by (destruct (Z.leb_spec 0 p), (Z.leb_spec (- z) (p - z)); auto; lia).
      rewrite andb_comm. destruct (_ && _); [split; congruence|].
      now rewrite (shows_cell t tt _ x W).
    - replace (p + z <? z) with (p <? 0)
        by (destruct (Z.ltb_spec p 0), (Z.ltb_spec (p + z) z); auto; lia).
      destruct (_ && _); [split; congruence|]. now rewrite (shows_cell t tt _ x W).
  Qed.

  (** The same as [z] single moves in the same direction. *)
  Theorem C10_chain_is_single_moves :
    forall t a b z rest, good_tape blank t -> half (ct_dir t) t = Blk b (Some z) :: rest ->
    forall t', apply_chain_move zops eqb t a = Some (t', Some z) ->
    exists t'', Nat.iter (Z.to_nat z)
                  (fun o => match o with
                            | Some t => apply_single_move zops eqb t a (ct_dir t)
                            | None => None end) (Some t) = Some t'' /\
      good_tape blank t'' /\ ct_dir t'' = ct_dir t' /\
      forall p x, shows_at t' p x <-> shows_at t'' p x.
  Proof.
    intros t a b z rest W E t' E'. apply good_twf in W.
    destruct (chain_move_fin eqb blank eqb_eq t a tt b z rest W E) as (t1 & E1 & W1 & Hz & Ed & D).
    assert (t1 = t') by congruence. subst t1.
    assert (H : forall k, exists t'', Nat.iter k
                  (fun o => match o with
                            | Some t => apply_single_move zops eqb t a (ct_dir t)
                            | None => None end) (Some t) = Some t'' /\ twf blank t'' /\
                  ct_dir t'' = ct_dir t /\ deq (tden blank t'' tt) (chain_t k a (tden blank t tt))).
    { assert (Cs : forall k (C : dcfg Sym unit), d_dir (chain_t k a C) = d_dir C /\
                 deq (chain_t (S k) a C) (apply_t (chain_t k a C) a (d_st C) (d_dir C))).
      { induction k as [|k IHk]; intros C.
        - split; [reflexivity|]. simpl. apply deq_refl.
        - destruct (IHk (apply_t C a (d_st C) (d_dir C))) as [I1 I2].
          assert (A : d_dir (apply_t C a (d_st C) (d_dir C)) = d_dir C)
            by (unfold apply_t; destruct (d_dir C); reflexivity).
          assert (B : d_st (apply_t C a (d_st C) (d_dir C)) = d_st C)
            by (unfold apply_t; destruct (d_dir C); reflexivity).
          rewrite A, B in I2. split; [simpl; rewrite I1; exact A|]. exact I2. }
      induction k as [|k (t'' & I1 & I2 & I3 & I4)].
      - exists t. split; [reflexivity|]. split; [exact W|]. split; [reflexivity|]. apply deq_refl.
      - change (Nat.iter (S k) ?f ?x) with (f (Nat.iter k f x)). cbv beta. rewrite I1.
        destruct (single_move_ok eqb blank eqb_eq t'' a (ct_dir t'') tt tt I2) as (t3 & E3 & W3 & Ed3 & D3).
        exists t3. split; [exact E3|]. split; [exact W3|]. split; [congruence|].
        eapply deq_trans; [exact D3|]. apply deq_sym.
        eapply deq_trans; [apply Cs|]. simpl d_dir. rewrite <- I3. simpl d_st.
        apply apply_ext. apply deq_sym. exact I4. }
    destruct (H (Z.to_nat z)) as (t'' & I1 & I2 & I3 & I4).
    exists t''. split; [exact I1|]. split; [now apply good_twf|]. split; [congruence|].
    intros p x. rewrite (shows_cell t' tt p x W1), (shows_cell t'' tt p x I2).
    rewrite (cellC_ext _ _ p D), (cellC_ext _ _ p I4). reflexivity.
  Qed.

  (** Over the endless block nothing is changed and infinity is reported. *)
  Theorem C10_infinite_chain :
    forall t a, good_tape blank t ->
    (apply_chain_move zops eqb t a = Some (t, None) /\ half (ct_dir t) t = [Blk blank None]) \/
    exists t' z, apply_chain_move zops eqb t a = Some (t', Some z).
  Proof.
    intros t a W. apply good_twf in W. pose proof (half_ok blank t (ct_dir t) W) as H.
    inversion H as [E|s z h Hz Hh E].
    - left. split; [|reflexivity]. eapply chain_move_inf. symmetry. exact E.
    - right. destruct (chain_move_fin eqb blank eqb_eq t a tt s z h W (eq_sym E)) as (t' & E' & _).
      eauto.
  Qed.

  (** The encoding stays canonical: neighbouring blocks carry different symbols. *)
  Theorem C10_blocks_stay_distinct :
    forall t, tadj t ->
    (forall a d t', apply_single_move zops eqb t a d = Some t' -> tadj t') /\
    (forall a t' o, apply_chain_move zops eqb t a = Some (t', o) -> tadj t').
  Proof.
    intros t H. split; intros.
    - eapply single_move_adj; eauto.
    - eapply chain_move_adj; eauto.
  Qed.

  (** get_nonzeros sums the symbol values over all cells of the tape. *)
  Theorem C10_nonzeros :
    forall t (ev : Sym -> nat) v, good_tape blank t -> ev blank = 0%nat ->
    exists N : nat, forall M : nat, (N <= M)%nat -> forall xl xr,
      length xl = M -> length xr = M ->
      (forall i x, nth_error xl i = Some x -> shows_at t (- Z.of_nat i - 1) x) ->
      (forall i x, nth_error xr i = Some x -> shows_at t (Z.of_nat i) x) ->
      ct_nonzeros zops ev v t =
      Z.of_nat (list_sum (map ev xl) + list_sum (map ev xr) + v).
  Proof.
    intros t ev v W E0. apply good_twf in W.
    destruct (nonzeros_ok blank ev E0 t v W) as (N0 & a & b & (N1 & A1 & A2) & (N2 & B1 & B2) & Eq).
    assert (Hs : forall s M xs, length xs = M ->
              (forall i x, nth_error xs i = Some x -> s i = x) ->
              map ev xs = map (fun i => ev (s i)) (seq 0 M)).
    { intros s M xs <- H. clear -H. revert s H. induction xs as [|x xs IH]; intros s H; simpl; auto.
      f_equal; [now rewrite (H 0%nat x eq_refl)|].
      rewrite (IH (fun i => s (S i))).
      - rewrite <- seq_shift, map_map. reflexivity.
      - intros i y Hy. apply (H (S i) y Hy). }
    exists (Nat.max N1 N2). intros M HM xl xr Ll Lr Hl Hr.
    destruct W as [W1 W2].
    rewrite (Hs (hden blank (ct_l t)) M xl Ll), (Hs (hden blank (ct_r t)) M xr Lr).
    - rewrite (ssum_ge ev (hden blank (ct_l t)) a M), (ssum_ge ev (hden blank (ct_r t)) b M); [lia|..].
      + intros i Hi. apply B1. lia.
      + exists N2. auto.
      + intros i Hi. apply A1. lia.
      + exists N1. auto.
    - intros i x Hx. apply (written_hden _ W2). specialize (Hr i x Hx). unfold shows_at in Hr.
      destruct (Z.ltb_spec (Z.of_nat i) 0); [lia|]. now rewrite Nat2Z.id in Hr.
    - intros i x Hx. apply (written_hden _ W1). specialize (Hl i x Hx). unfold shows_at in Hl.
      destruct (Z.ltb_spec (- Z.of_nat i - 1) 0); [|lia].
      replace (Z.to_nat (- (- Z.of_nat i - 1) - 1)) with i in Hl by lia. exact Hl.
  Qed.
End C10.

(** hypotheses of C10 met by a tape of four blocks; the results *)
Definition c10_tape : ctape Z nat :=
  CTape R [Blk 2%nat (Some 5); Blk 0%nat None] [Blk 1%nat (Some 3); Blk 0%nat None].
Example C10_example :
  good_tape 0%nat c10_tape /\ tadj c10_tape /\
  apply_single_move zops Nat.eqb c10_tape 2%nat R =
    Some (CTape R [Blk 2%nat (Some 6); Blk 0%nat None] [Blk 1%nat (Some 2); Blk 0%nat None]) /\
  apply_chain_move zops Nat.eqb c10_tape 3%nat =
    Some (CTape R [Blk 3%nat (Some 3); Blk 2%nat (Some 5); Blk 0%nat None] [Blk 0%nat None], Some 3) /\
  ct_nonzeros zops (fun s => if Nat.eqb s 0 then 0 else 1)%nat 0 c10_tape = 8.
Proof.
  split; [|split; [|repeat split]].
  - intros h [-> | ->]; simpl.
    + exists [Blk 2%nat (Some 5)]. split; auto. constructor; auto. exists 5. split; [reflexivity|lia].
    + exists [Blk 1%nat (Some 3)]. split; auto. constructor; auto. exists 3. split; [reflexivity|lia].
  - split; simpl; split; auto.
Qed.

(** ** C11 *)

(** The simulator never fails, and when it reports a halt, step count, nonzero
    count and halting cell are the machine's own. *)
Theorem C11_halting_exact :
  forall n m tab g d, wf_ttable n m tab -> valid_setting g = true ->
  exists r, run_plain tab g d = Some r /\
    (r_op r = HALT \/ r_op r = UNDEFINED ->
     exists from_symbol from_state rest tape,
       r_details r = DCell from_symbol from_state :: rest /\
       0 <= r_steps r /\ 0 <= r_nonzeros r /\
       halts_at (table_of tab) initial (Z.to_nat (r_steps r)) from_state from_symbol
                (cond_eqb (r_op r) HALT) tape /\
       score tape (Z.to_nat (r_nonzeros r))).
Proof.
  intros n m tab g d W V.
  destruct (run_plain_ok n m tab g d False W V ltac:(tauto)) as (r & E & H & _).
  exists r. split; [exact E|]. unfold report_ok in H. intros [Ho|Ho]; rewrite Ho in *;
    destruct H as (q & a & ds & tape & D & S1 & S2 & Hh & Sc & _); exists a, q, ds, tape; auto.
Qed.

(** Running for longer: whatever happens first is found.  If the machine halts
    after [t] steps, a simulation seeking beyond [t] cannot still be running. *)
Theorem C11_seek_finds_halt :
  forall n m tab g z t q a b tape, wf_ttable n m tab -> valid_setting g = true ->
  repeat_trusted n m g ->
  halts_at (table_of tab) initial t q a b tape -> Z.of_nat t <= z ->
  exists r, run_plain tab g (Seek z) = Some r /\
    (r_op r = GAVE_UP \/
     r_op r = (if b then HALT else UNDEFINED) /\ r_steps r = Z.of_nat t).
Proof.
  intros n m tab g z t q a b tape W V Tr Hh Hz.
  destruct (run_plain_ok n m tab g (Seek z) True W V ltac:(auto)) as (r & E & _ & H).
  specialize (H I). exists r. split; [exact E|].
  assert (Hrun : r_op r = RUNNING -> z <= r_steps r).
  { intros Er.
    assert (G : exists r, run_plain tab g (Seek z) = Some r /\ (r_op r = RUNNING -> z <= r_steps r)).
    { unfold run_plain.
      apply (with_machine_prop tab g _ _ (fun o => exists r, o = Some r /\ (r_op r = RUNNING -> z <= r_steps r))
               (setting_exact n m tab g W V)).
      intros Sym St M (Rp & halted & MS & SW & _).
      destruct (drive_steps False (table_of tab) M Rp halted MS SW no_prover _
                  (no_prover_ok _ M Rp) (Seek z) tt (sim_init zops M) I
                  (sim_init_ok False _ M Rp halted MS)) as (k & [p s] & E1 & _ & E3).
      rewrite E1. eexists. split; [reflexivity|]. exact E3. }
    destruct G as (r' & E' & G). assert (r' = r) by congruence. subst. auto. }
  unfold report_ok in H. destruct (r_op r) eqn:Ho.
  - exfalso. destruct H as (S0 & _ & c & Ec & _). specialize (Hrun eq_refl).
    destruct Hh as (k & c' & w & dd & -> & Ek & -> & -> & HM & _).
    assert (Hs : steps (table_of tab) (S k) initial = None).
    { replace (S k) with (k + 1)%nat by lia. rewrite steps_add, Ek. simpl. unfold step. now rewrite HM. }
    destruct (steps_le (table_of tab) (Z.to_nat (r_steps r)) (S k) initial c ltac:(lia) Ec) as (e & Ee).
    congruence.
  - right. destruct H as (q' & a' & ds & tape' & _ & S0 & _ & Hh' & _).
    destruct (halts_at_fun _ _ _ _ _ _ _ _ _ _ _ _ Hh Hh') as (-> & _ & _ & -> & _).
    simpl. split; auto. lia.
  - exfalso. destruct H as (rs & st & _ & H & _). apply (halts_not_nonhalting _ _ _ _ _ _ _ Hh). auto.
  - right. destruct H as (q' & a' & ds & tape' & _ & S0 & _ & Hh' & _).
    destruct (halts_at_fun _ _ _ _ _ _ _ _ _ _ _ _ Hh Hh') as (-> & _ & _ & -> & _).
    simpl. split; auto. lia.
  - left. reflexivity.
Qed.

(** ** C12 *)

(** An endless chain over blank tape: true in every setting.  A repeat inside a
    macro cell: true unless a backsymbol layer sits on blocks that may be
    abandoned at the step limit. *)
Theorem C12_infinite_verdicts_partial :
  forall n m tab g d, wf_ttable n m tab -> valid_setting g = true ->
  forall r, run_plain tab g d = Some r -> r_op r = INF_REPEAT ->
  exists reason states, r_inf r = Some (reason, states) /\
    (reason <> INF_MACRO_STEP \/ repeat_trusted n m g -> nonhalting (table_of tab) initial).
Proof.
  intros n m tab g d W V r E Ho.
  destruct (run_plain_ok n m tab g d False W V ltac:(tauto)) as (r' & E' & H & _).
  assert (r' = r) by congruence. subst r'. unfold report_ok in H. rewrite Ho in H.
  destruct H as (reason & states & Hi & H & _). exists reason, states. split; [exact Hi|].
  intros [Hr|Hr]; [apply H; congruence|].
  destruct (run_plain_ok n m tab g d True W V ltac:(auto)) as (r' & E2 & _ & H2).
  assert (r' = r) by congruence. subst r'. specialize (H2 I). unfold report_ok in H2. rewrite Ho in H2.
  destruct H2 as (? & ? & _ & H2 & _). apply H2. auto.
Qed.

(** The states reported to recur in an endless chain are exactly those that are
    visited infinitely often. *)
Theorem C12_recurring_states :
  forall n m tab g d, wf_ttable n m tab -> valid_setting g = true ->
  forall r reason states, run_plain tab g d = Some r -> r_op r = INF_REPEAT ->
  r_inf r = Some (reason, Some states) -> reason <> INF_MACRO_STEP ->
  forall q, In q states <->
    forall k, exists i c, (k <= i)%nat /\ steps (table_of tab) i initial = Some c /\ st c = q.
Proof.
  intros n m tab g d W V r reason states E Ho Hi Hr.
  destruct (run_plain_ok n m tab g d False W V ltac:(tauto)) as (r' & E' & H & _).
  assert (r' = r) by congruence. subst r'. unfold report_ok in H. rewrite Ho in H.
  destruct H as (reason' & states' & Hi' & _ & H). rewrite Hi in Hi'. injection Hi' as <- <-.
  exact (proj1 (H Hr)).
Qed.

(** Without that proviso C12 is false: the machine of C07, simulated with block
    size 2, backsymbol and a limit of 3 steps per block, is declared infinite after
    one loop, but halts. *)
Theorem C12_abandoned_block_refuted :
  exists n m tab g d r, wf_ttable n m tab /\ valid_setting g = true /\
    run_plain tab g d = Some r /\ r_op r = INF_REPEAT /\
    exists t q a tape, halts_at (table_of tab) initial t q a true tape.
Proof.
  exists 133%nat, 2%nat,
    (match tm_from_quintuples Prop_Macro.c07_rows 133 2 with Some t => t | None => [] end),
    (SBlockBack 2 0 3 1000), (Steps 1).
  eexists. split; [apply (quintuples_wf Prop_Macro.c07_rows); [lia|lia|vm_compute; reflexivity]|].
  split; [reflexivity|]. split; [vm_compute; reflexivity|]. split; [reflexivity|].
  exists (S 133), 128%nat, 1%nat. apply halts_check_ok. vm_compute. reflexivity.
Qed.

(** ** C13 *)

(** While it runs (or has been abandoned) the report is that of the machine after
    the reported number of steps; also the last visit to each state. *)
Theorem C13_running_snapshot :
  forall n m tab g d, wf_ttable n m tab -> valid_setting g = true ->
  forall r, run_plain tab g d = Some r -> r_op r = RUNNING \/ r_op r = GAVE_UP ->
  0 <= r_steps r /\ 0 <= r_nonzeros r /\
  exists c, steps (table_of tab) (Z.to_nat (r_steps r)) initial = Some c /\
            score (tp c) (Z.to_nat (r_nonzeros r)) /\
            forall seen, r_seen r = Some seen -> forall q,
              match nd_get q seen with
              | Some j => 0 <= j < r_steps r /\
                  (exists e, steps (table_of tab) (Z.to_nat j) initial = Some e /\ st e = q) /\
                  forall i e, j < i < r_steps r ->
                    steps (table_of tab) (Z.to_nat i) initial = Some e -> st e <> q
              | None => forall i e, 0 <= i < r_steps r ->
                    steps (table_of tab) (Z.to_nat i) initial = Some e -> st e <> q
              end.
Proof.
  intros n m tab g d W V r E Ho.
  destruct (run_plain_ok n m tab g d False W V ltac:(tauto)) as (r' & E' & H & _).
  assert (r' = r) by congruence. subst r'. unfold report_ok in H.
  destruct Ho as [Ho|Ho]; rewrite Ho in H; destruct H as (S0 & N0 & c & Ec & Sc & Hs);
    (split; [exact S0|]; split; [exact N0|]; exists c; split; [exact Ec|]; split; [exact Sc|];
     intros seen Es q; rewrite Es in Hs; destruct (Hs q) as [H1 H2];
     destruct (nd_get q seen) as [j|]; simpl in H2;
     [destruct H2 as (Hj & Hv & Hl); split; [lia|]; split; [exact Hv|];
      intros i e Hi; apply Hl; lia
     |intros i e Hi; apply H2; lia]).
Qed.

(** Two settings that both decide agree on everything; a run that is still going
    is before the halt found by another; equal step counts show equal tapes. *)
Theorem C13_settings_agree :
  forall n m tab g1 d1 g2 d2 r1 r2, wf_ttable n m tab ->
  valid_setting g1 = true -> valid_setting g2 = true ->
  run_plain tab g1 d1 = Some r1 -> run_plain tab g2 d2 = Some r2 ->
  let halting r := r_op r = HALT \/ r_op r = UNDEFINED in
  (halting r1 -> halting r2 ->
     r_op r1 = r_op r2 /\ r_steps r1 = r_steps r2 /\ r_nonzeros r1 = r_nonzeros r2 /\
     hd_error (r_details r1) = hd_error (r_details r2)) /\
  (halting r1 -> r_op r2 = INF_REPEAT -> repeat_trusted n m g2 -> False) /\
  (halting r1 -> r_op r2 = RUNNING \/ r_op r2 = GAVE_UP -> r_steps r2 < r_steps r1) /\
  (r_op r1 = RUNNING -> r_op r2 = RUNNING -> r_steps r1 = r_steps r2 ->
     r_nonzeros r1 = r_nonzeros r2).
Proof.
  intros n m tab g1 d1 g2 d2 r1 r2 W V1 V2 E1 E2 halting.
  assert (H1 : halting r1 -> exists q a ds tape, r_details r1 = DCell a q :: ds /\
     0 <= r_steps r1 /\ 0 <= r_nonzeros r1 /\
     halts_at (table_of tab) initial (Z.to_nat (r_steps r1)) q a (cond_eqb (r_op r1) HALT) tape /\
     score tape (Z.to_nat (r_nonzeros r1))).
  { intros Ho. destruct (C11_halting_exact n m tab g1 d1 W V1) as (r & E & H).
    assert (r = r1) by congruence. subst.
    destruct (H Ho) as (q & a & ds & tape & H'). exists a, q, ds, tape. exact H'. }
  split; [|split; [|split]].
  - intros Ho1 Ho2. destruct (H1 Ho1) as (q & a & ds & tape & D & S0 & N0 & Hh & Sc).
    destruct (C11_halting_exact n m tab g2 d2 W V2) as (r & E & H).
    assert (r = r2) by congruence. subst.
    destruct (H Ho2) as (a' & q' & ds' & tape' & D' & S0' & N0' & Hh' & Sc').
    destruct (halts_at_fun _ _ _ _ _ _ _ _ _ _ _ _ Hh Hh') as (En & -> & -> & Eb & Et).
    rewrite D, D'. split; [|split; [lia|split; [|reflexivity]]].
    + destruct Ho1 as [O1|O1], Ho2 as [O2|O2]; rewrite O1, O2 in *; simpl in Eb; congruence.
    + pose proof (score_ext _ _ _ Et Sc) as Sc2. pose proof (score_fun _ _ _ Sc2 Sc'). lia.
  - intros Ho1 Ho2 Tr. destruct (H1 Ho1) as (q & a & ds & tape & D & S0 & N0 & Hh & Sc).
    destruct (C12_infinite_verdicts_partial n m tab g2 d2 W V2 r2 E2 Ho2) as (? & ? & _ & H).
    apply (halts_not_nonhalting _ _ _ _ _ _ _ Hh). auto.
  - intros Ho1 Ho2. destruct (H1 Ho1) as (q & a & ds & tape & D & S0 & N0 & Hh & Sc).
    destruct (C13_running_snapshot n m tab g2 d2 W V2 r2 E2 Ho2) as (S2 & _ & c & Ec & _).
    destruct Hh as (k & c' & w & dd & Ek & Es & -> & -> & HM & _).
    destruct (Z_lt_le_dec (r_steps r2) (r_steps r1)); auto. exfalso.
    assert (Hs : steps (table_of tab) (S k) initial = None).
    { replace (S k) with (k + 1)%nat by lia. rewrite steps_add, Es. simpl. unfold step. now rewrite HM. }
    destruct (steps_le (table_of tab) (Z.to_nat (r_steps r2)) (S k) initial c ltac:(lia) Ec) as (e & Ee).
    congruence.
  - intros Ho1 Ho2 Es.
    destruct (C13_running_snapshot n m tab g1 d1 W V1 r1 E1 (or_introl Ho1)) as (S1 & N1 & c1 & Ec1 & Sc1 & _).
    destruct (C13_running_snapshot n m tab g2 d2 W V2 r2 E2 (or_introl Ho2)) as (S2 & N2 & c2 & Ec2 & Sc2 & _).
    rewrite Es in Ec1. assert (c1 = c2) by congruence. subst.
    pose proof (score_fun _ _ _ Sc1 Sc2). lia.
Qed.

(** ** Examples *)

(** the 2-state champion: 6 steps, 4 ones, in four settings *)
Example C11_example :
  forall g, In g [SBase; SBlock 2 0 10000; SBack 10000; SBlockBack 3 1 10000 10000] ->
  valid_setting g = true /\
  match run_plain Prop_Macro.bb2 g (LoopSeek 100) with
  | Some r => r_op r = HALT /\ r_steps r = 6 /\ r_nonzeros r = 4 /\
              hd_error (r_details r) = Some (DCell 1 1)
  | None => False
  end.
Proof. intros g [<-|[<-|[<-|[<-|[]]]]]; vm_compute; repeat split. Qed.

(** A: 0 -> 1RA runs off to the right; B is never visited *)
Definition c12_rows : list quint := [Quint 0 0 (Some 1%nat) R (SRun 0)].
Definition c12_tab := match tm_from_quintuples c12_rows 1 2 with Some t => t | None => [] end.
Example C12_example :
  match run_plain c12_tab SBase (Seek 50) with
  | Some r => r_op r = INF_REPEAT /\ r_inf r = Some (INF_CHAIN_STEP, Some [0%nat])
  | None => False
  end.
Proof. vm_compute. auto. Qed.
(** and a repeat inside a cell: A: 0 -> 0RB, B: 0 -> 0LA in blocks of three *)
Definition c12_rows2 : list quint :=
  [Quint 0 0 (Some 0%nat) R (SRun 1); Quint 1 0 (Some 0%nat) L (SRun 0)].
Definition c12_tab2 := match tm_from_quintuples c12_rows2 2 2 with Some t => t | None => [] end.
Example C12_example2 :
  match run_plain c12_tab2 (SBlock 3 0 10000) (Seek 50) with
  | Some r => r_op r = INF_REPEAT /\ exists st, r_inf r = Some (INF_MACRO_STEP, st)
  | None => False
  end.
Proof. vm_compute. split; eauto. Qed.

(** a snapshot of the 2-state champion after four of its six steps *)
Example C13_example :
  match run_plain Prop_Macro.bb2 SBase (Seek 4) with
  | Some r => r_op r = RUNNING /\ r_steps r = 4 /\ r_nonzeros r = 3
  | None => False
  end.
Proof. vm_compute. auto. Qed.

Print Assumptions C10_single_move.
Print Assumptions C10_chain_move.
Print Assumptions C10_chain_is_single_moves.
Print Assumptions C10_infinite_chain.
Print Assumptions C10_blocks_stay_distinct.
Print Assumptions C10_nonzeros.
Print Assumptions C11_halting_exact.
Print Assumptions C11_seek_finds_halt.
Print Assumptions C12_infinite_verdicts_partial.
Print Assumptions C12_recurring_states.
Print Assumptions C12_abandoned_block_refuted.
Print Assumptions C13_running_snapshot.
Print Assumptions C13_settings_agree.
