(** * Property C54: the rule prover with the option [--limited-rules] *)
Require Import ZArith List Lia Bool Arith QArith Qround.
From Verif Require Import Spec_TM M_Turing_Machine P_Stream P_SimLimited P_Macro P_Repeat P_Quint P_Pump
     P_Compute M_Expr P_Expr M_Tape M_Simulator P_Tape P_Simulator M_Settings P_Settings M_Prover P_Lin P_GenSim P_Form P_Nums
     P_Rule P_MakeRule P_Apply M_ProverRun P_ProverRun M_ProverLim P_ProverLim P_LimApply P_LimRule P_LimRun
     Prop_Simulator Prop_Prover.
Import ListNotations.
Open Scope Z_scope.

(** ** One rule *)

(** Two blocks look alike: the same symbol, and both counts infinite, both 1, or both
    other than 1. *)
Definition like {Sym} (b b' : blk Z Sym) : Prop :=
  k_sym b = k_sym b' /\
  match k_num b, k_num b' with
  | None, None => True
  | Some x, Some y => x = 1 <-> y = 1
  | _, _ => False
  end.
(** The first [d] blocks next to the head look alike; with [d = 0] all blocks. *)
Definition alike {Sym} (d : nat) (h h' : list (blk Z Sym)) : Prop :=
  if Nat.eqb d 0 then Forall2 like h h' else Forall2 like (firstn d h) (firstn d h').

Definition look {Sym} (b : blk Z Sym) : option (Sym * bool) :=
  match k_num b with Some n => Some (k_sym b, z_is1 n) | None => None end.
Lemma like_look {Sym} (h h' : list (blk Z Sym)) : Forall2 like h h' -> map look h = map look h'.
Proof.
  induction 1 as [|[s x] [s' y] h h' [Es En] H IH]; [reflexivity|]. simpl. rewrite IH. f_equal.
  unfold look. simpl in *. destruct x as [x|], y as [y|]; try contradiction; [|reflexivity].
  do 2 f_equal; [exact Es|]. unfold z_is1. destruct (Z.eqb_spec x 1), (Z.eqb_spec y 1); tauto.
Qed.
Lemma strip_look {Sym} (i0 : Sym) h : hwf i0 h -> map Some (strip_half z_is1 h) ++ [None] = map look h.
Proof.
  unfold strip_half. induction 1 as [|s z h Hz H IH]; [reflexivity|].
  assert (E : h <> []) by (destruct H; discriminate).
  destruct h as [|b h]; [congruence|]. change (removelast (Blk s (Some z) :: b :: h)) with (Blk s (Some z) :: removelast (b :: h)).
  cbn [map app]. f_equal. exact IH.
Qed.
Lemma alike_key {Sym St} (q : St) dd d (i0 : Sym) h h' : hwf i0 h -> hwf i0 h' -> alike d h h' ->
  lkey_of q dd (strip_half z_is1 h) d = lkey_of q dd (strip_half z_is1 h') d.
Proof.
  intros W W'. unfold alike, lkey_of, near. rewrite (strip_look _ _ W), (strip_look _ _ W').
  destruct d as [|d]; cbn [Nat.eqb]; intros H; apply like_look in H; [now rewrite H|].
  rewrite !firstn_map. now rewrite H.
Qed.

(** Proving never raises.  A limited rule proved on one tape may be applied to every
    tape whose blocks within the distances of the rule look alike, whatever blocks lie
    further out: this never raises, and what it says of the new tape, the number of
    steps, the last visits to each state and of running forever is true of the base
    machine on that tape. *)
Theorem C54_limited_rule_is_true :
  forall n m tab g, wf_ttable n m tab -> valid_setting g = true ->
  with_denoted n m tab g (fun Sym St M denotes =>
    forall next t q delta, good_tape (m_init_sym M) t -> (1 <= delta)%nat ->
    (exists c, denotes (tden (m_init_sym M) t q) c) ->
    exists nx ro, prove_lim M next t q delta = Some (nx, ro) /\
    forall r, ro = Some (inl r) ->
    forall next' t' c, good_tape (m_init_sym M) t' ->
    ct_dir t' = ct_dir t -> alike (lr_left r) (ct_l t') (ct_l t) -> alike (lr_right r) (ct_r t') (ct_r t) ->
    denotes (tden (m_init_sym M) t' q) c ->
    exists nx' o, apply_lim next' r t' = Some (nx', o) /\
    match o with
    | None | Some PNothing => True
    | Some (PInf states) =>
      nonhalting (table_of tab) c /\
      forall l, states = Some l -> forall x, In x l <->
        forall k, exists i d, (k <= i)%nat /\ steps (table_of tab) i c = Some d /\ st d = x
    | Some (PApply t'' k seen) =>
      good_tape (m_init_sym M) t'' /\ ct_dir t'' = ct_dir t' /\ 0 < k /\
      (exists c', steps (table_of tab) (Z.to_nat k) c = Some c' /\ denotes (tden (m_init_sym M) t'' q) c') /\
      forall l, seen = Some l -> forall x,
        match nd_get x l with
        | Some j => 0 <= j < k /\ (exists e, steps (table_of tab) (Z.to_nat j) c = Some e /\ st e = x) /\
            forall i e, j < i < k -> steps (table_of tab) (Z.to_nat i) c = Some e -> st e <> x
        | None => forall i e, 0 <= i < k -> steps (table_of tab) (Z.to_nat i) c = Some e -> st e <> x
        end
    end).
Proof.
  intros n m tab g W V. refine (with_denoted_mono n m tab g _ _ (denoted_sound n m tab g W V) _).
  intros Sym St M Rp (halted & MS & SW & PU) next t q delta Wt Hd (c0 & R0).
  apply good_twf in Wt.
  destruct (prove_lim_ok False _ M Rp halted MS SW PU next t q c0 delta Wt R0 Hd) as (nx & ro & E & H).
  exists nx, ro. split; [exact E|]. intros r -> next' t' c Wt' Ed Al Ar R. apply good_twf in Wt'.
  destruct (apply_lim_ok _ M Rp next' _ _ r t' q c H Wt') as (nx' & o & Ea & Ho); [| |exact R|].
  { rewrite Ed. exact (alike_key q _ _ _ _ _ (proj1 Wt') (proj1 Wt) Al). }
  { rewrite Ed. exact (alike_key q _ _ _ _ _ (proj2 Wt') (proj2 Wt) Ar). }
  exists nx', o. split; [exact Ea|]. destruct o as [[|t'' k seen|states]|]; simpl in Ho; auto.
  - destruct Ho as (H1 & H2 & H3 & H4 & H5). split; [now apply good_twf|]. split; [exact H2|]. split; [exact H3|].
    split; [exact H4|]. intros l -> x. destruct H5 as [_ H5]. destruct (H5 x) as [A B].
    destruct (nd_get x l) as [j|]; simpl in B.
    + destruct B as (B1 & B2 & B3). split; [lia|]. split; [exact B2|]. intros i e Hi. apply B3. lia.
    + intros i e Hi. apply B. lia.
  - destruct Ho as (H1 & H2 & _). split; [exact H1|]. intros l -> x. exact (H2 x).
Qed.

(** ** Whole runs

    [order] stands for the arbitrary order in which Python lists a set of rules. *)

(** With this option too the simulator never raises, and a halt is reported only as the
    machine itself halts. *)
Theorem C54_halting_exact :
  forall n m order tab g mc mr next d, (forall A l, incl (order A l) l) -> wf_ttable n m tab -> valid_setting g = true -> (0 < mr)%nat ->
  exists r, run_limited order tab g mc mr next d = Some r /\
    (r_op r = HALT \/ r_op r = UNDEFINED ->
     exists from_symbol from_state rest tape,
       r_details r = DCell from_symbol from_state :: rest /\
       0 <= r_steps r /\ 0 <= r_nonzeros r /\
       halts_at (table_of tab) initial (Z.to_nat (r_steps r)) from_state from_symbol
                (cond_eqb (r_op r) HALT) tape /\
       score tape (Z.to_nat (r_nonzeros r))).
Proof.
  intros n m order tab g mc mr next d Ho' W V Hmr.
  destruct (run_limited_ok n m order tab g mc mr next d False Ho' W V Hmr ltac:(tauto)) as (r & E & H & _).
  exists r. split; [exact E|]. unfold report_ok in H. intros [Ho|Ho]; rewrite Ho in *;
    destruct H as (q & a & ds & tape & D & S1 & S2 & Hh & Sc & _); exists a, q, ds, tape; auto.
Qed.

(** Infinite verdicts, in particular those of the prover, are true (for a repeat
    inside a macro cell see C12), and the states reported to recur are exactly
    those visited infinitely often. *)
Theorem C54_infinite_verdicts_partial :
  forall n m order tab g mc mr next d r, (forall A l, incl (order A l) l) -> wf_ttable n m tab -> valid_setting g = true -> (0 < mr)%nat ->
  run_limited order tab g mc mr next d = Some r -> r_op r = INF_REPEAT ->
  exists reason states, r_inf r = Some (reason, states) /\
    (reason <> INF_MACRO_STEP \/ repeat_trusted n m g -> nonhalting (table_of tab) initial) /\
    (reason <> INF_MACRO_STEP -> forall l, states = Some l -> forall q, In q l <->
       forall k, exists i c, (k <= i)%nat /\ steps (table_of tab) i initial = Some c /\ st c = q).
Proof.
  intros n m order tab g mc mr next d r Ho' W V Hmr E Ho.
  destruct (run_limited_ok n m order tab g mc mr next d False Ho' W V Hmr ltac:(tauto)) as (r' & E' & H & _).
  assert (r' = r) by congruence. subst r'. unfold report_ok in H. rewrite Ho in H.
  destruct H as (reason & states & Hi & H & Hs). exists reason, states. split; [exact Hi|]. split.
  - intros [Hr|Hr]; [apply H; congruence|].
    destruct (run_limited_ok n m order tab g mc mr next d True Ho' W V Hmr ltac:(auto)) as (r' & E2 & _ & H2).
    assert (r' = r) by congruence. subst r'. specialize (H2 I). unfold report_ok in H2. rewrite Ho in H2.
    destruct H2 as (? & ? & _ & H2 & _). apply H2. auto.
  - intros Hr l -> q. exact (proj1 (Hs Hr) q).
Qed.

(** A simulation that is still going shows the machine after the reported number
    of steps; also the last visit to each state. *)
Theorem C54_running_snapshot :
  forall n m order tab g mc mr next d r, (forall A l, incl (order A l) l) -> wf_ttable n m tab -> valid_setting g = true -> (0 < mr)%nat ->
  run_limited order tab g mc mr next d = Some r -> r_op r = RUNNING \/ r_op r = GAVE_UP ->
  0 <= r_steps r /\ 0 <= r_nonzeros r /\
  exists c, steps (table_of tab) (Z.to_nat (r_steps r)) initial = Some c /\
            score (tp c) (Z.to_nat (r_nonzeros r)) /\
            forall seen, r_seen r = Some seen -> forall q,
              match nd_get q seen with
              | Some j => 0 <= j < r_steps r /\
                  (exists e, steps (table_of tab) (Z.to_nat j) initial = Some e /\ st e = q) /\
                  forall i e, j < i < r_steps r ->
                    steps (table_of tab) (Z.to_nat i) initial = Some e -> st e <> q
              | None => forall i e, 0 <= i < r_steps r ->
                    steps (table_of tab) (Z.to_nat i) initial = Some e -> st e <> q
              end.
Proof.
  intros n m order tab g mc mr next d r Ho' W V Hmr E Ho.
  destruct (run_limited_ok n m order tab g mc mr next d False Ho' W V Hmr ltac:(tauto)) as (r' & E' & H & _).
  assert (r' = r) by congruence. subst r'. unfold report_ok in H.
  destruct Ho as [Ho|Ho]; rewrite Ho in H; destruct H as (S0 & N0 & c & Ec & Sc & Hs);
    (split; [exact S0|]; split; [exact N0|]; exists c; split; [exact Ec|]; split; [exact Sc|];
     intros seen Es q; rewrite Es in Hs; destruct (Hs q) as [H1 H2];
     destruct (nd_get q seen) as [j|]; simpl in H2;
     [destruct H2 as (Hj & Hv & Hl); split; [lia|]; split; [exact Hv|];
      intros i e Hi; apply Hl; lia
     |intros i e Hi; apply H2; lia]).
Qed.

(** Seeking past the halt of a machine finds it, unless a block is given up. *)
Theorem C54_seek_finds_halt :
  forall n m order tab g mc mr next z t q a b tape, (forall A l, incl (order A l) l) -> wf_ttable n m tab -> valid_setting g = true -> (0 < mr)%nat ->
  repeat_trusted n m g ->
  halts_at (table_of tab) initial t q a b tape -> Z.of_nat t <= z ->
  exists r, run_limited order tab g mc mr next (Seek z) = Some r /\
    (r_op r = GAVE_UP \/
     r_op r = (if b then HALT else UNDEFINED) /\ r_steps r = Z.of_nat t).
Proof.
  intros n m order tab g mc mr next z t q a b tape Ho' W V Hmr Tr Hh Hz.
  destruct (run_limited_ok n m order tab g mc mr next (Seek z) True Ho' W V Hmr ltac:(auto)) as (r & E & _ & H).
  specialize (H I). exists r. split; [exact E|].
  pose proof (run_limited_seek n m order tab g mc mr next z r Ho' W V Hmr E) as Hrun.
  unfold report_ok in H. destruct (r_op r) eqn:Ho.
  - exfalso. destruct H as (S0 & _ & c & Ec & _). specialize (Hrun eq_refl).
    destruct Hh as (k & c' & w & dd & -> & Ek & -> & -> & HM & _).
    assert (Hs : steps (table_of tab) (S k) initial = None).
    { replace (S k) with (k + 1)%nat by lia. rewrite steps_add, Ek. simpl. unfold step. now rewrite HM. }
    destruct (steps_le (table_of tab) (Z.to_nat (r_steps r)) (S k) initial c ltac:(lia) Ec) as (e & Ee).
    congruence.
  - right. destruct H as (q' & a' & ds & tape' & _ & S0 & _ & Hh' & _).
    destruct (halts_at_fun _ _ _ _ _ _ _ _ _ _ _ _ Hh Hh') as (-> & _ & _ & -> & _).
    simpl. split; auto. lia.
  - exfalso. destruct H as (rs & st & _ & H & _). apply (halts_not_nonhalting _ _ _ _ _ _ _ Hh). auto.
  - right. destruct H as (q' & a' & ds & tape' & _ & S0 & _ & Hh' & _).
    destruct (halts_at_fun _ _ _ _ _ _ _ _ _ _ _ _ Hh Hh') as (-> & _ & _ & -> & _).
    simpl. split; auto. lia.
  - left. reflexivity.
Qed.

(** ** Examples *)

Definition same_order (A : Type) (l : list A) : list A := l.
Lemma same_order_ok A (l : list A) : incl (same_order A l) l.
Proof. now intros x. Qed.

(** the five-state champion *)
Example C54_example :
  exists tape, halts_at (table_of bb5) initial (Z.to_nat 47176870) 4 0 true tape /\ score tape (Z.to_nat 4098).
Proof.
  destruct (C54_halting_exact 5 2 same_order bb5 (SBlock 3 0 1000) 100 10 0 (LoopSeek 1000) same_order_ok bb5_wf eq_refl ltac:(lia)) as (r & E & H).
  vm_compute in E. injection E as <-.
  destruct (H (or_introl eq_refl)) as (a & q & rest & tape & D & _ & _ & Hh & Sc).
  injection D as <- <- <-. exists tape. split; [exact Hh|exact Sc].
Qed.

Example C54_example_infinite :
  match run_limited same_order bouncer SBase 100 10 0 (Seek 1000) with
  | Some r => r_op r = INF_REPEAT /\ r_inf r = Some (INF_PROOF_SYSTEM, Some [0%nat; 1%nat])
  | None => False
  end.
Proof. vm_compute. auto. Qed.

(** A: 1 -> 2RB; B: 1 -> 1RB, 3 -> 3LC; C: 1 -> 1LC, 2 -> 2RA: the head goes to and fro
    between 2 and 3.  The rule proved on 2^5 (head here) 1^9 3^7 touches one block to the
    left and two to the right; it is applied 89 times at once where other blocks lie
    beyond these. *)
Definition shuttle_rows : list quint :=
 [Quint 0 1 (Some 2%nat) R (SRun 1);
  Quint 1 1 (Some 1%nat) R (SRun 1); Quint 1 3 (Some 3%nat) L (SRun 2);
  Quint 2 1 (Some 1%nat) L (SRun 2); Quint 2 2 (Some 2%nat) R (SRun 0)].
Definition shuttle := match tm_from_quintuples shuttle_rows 3 4 with Some t => t | None => [] end.
Definition c54_far (k n j : Z) : ctape Z nat :=
  CTape R [Blk 2%nat (Some k); Blk 1%nat (Some 4); Blk 3%nat (Some 1); Blk 0%nat None]
          [Blk 1%nat (Some n); Blk 3%nat (Some j); Blk 2%nat (Some 6); Blk 0%nat None].
Example C54_example_far :
  exists nx r nx' k seen, prove_lim (simple_machine shuttle) 7 (c17_tape 5 9 7) (SRun 0) 5 = Some (nx, Some (inl r)) /\
    lr_left r = 1%nat /\ lr_right r = 2%nat /\
    alike (lr_left r) (ct_l (c54_far 8 90 2)) (ct_l (c17_tape 5 9 7)) /\
    alike (lr_right r) (ct_r (c54_far 8 90 2)) (ct_r (c17_tape 5 9 7)) /\
    strip_config z_is1 (SRun 0) (c54_far 8 90 2) <> strip_config z_is1 (SRun 0) (c17_tape 5 9 7) /\
    apply_lim nx r (c54_far 8 90 2) = Some (nx', Some (PApply (c54_far 97 1 2) k (Some seen))) /\ k = 8277.
Proof.
  do 5 eexists. split; [vm_compute; reflexivity|]. split; [reflexivity|]. split; [reflexivity|].
  split; [repeat constructor; cbn; lia|]. split; [repeat constructor; cbn; lia|]. split; [discriminate|].
  split; vm_compute; reflexivity.
Qed.

Print Assumptions C54_limited_rule_is_true.
Print Assumptions C54_halting_exact.
Print Assumptions C54_infinite_verdicts_partial.
Print Assumptions C54_running_snapshot.
Print Assumptions C54_seek_finds_halt.
Print Assumptions C54_example.
