(** * Properties C16 - C18: the rule prover *)
Require Import ZArith List Lia Bool Arith QArith Qround.
From Verif Require Import Spec_TM M_Turing_Machine P_Stream P_SimLimited P_Macro P_Repeat P_Quint P_Pump
     P_Compute M_Expr P_Expr M_Tape M_Simulator P_Tape P_Simulator M_Settings P_Settings M_Prover P_Lin P_GenSim P_Form P_Nums
     P_Rule P_MakeRule P_Apply M_ProverRun P_ProverRun Prop_Simulator.
From Verif Require Prop_Macro.
Import ListNotations.
Open Scope Z_scope.

(** ** C16 *)

(** value of a number or expression when variable [x] is the integer [v x] *)
Definition value (v : nat -> Z) (e : val) : Z := Qfloor (evv (fun x => inject_Z (v x)) e).

(** the counts a rule starts from, and those it leads to *)
Definition rule_before (r : rule) (v : nat -> Z) : list (option Z) :=
  match r with
  | RDiff inits _ _ _ => map (option_map (value v)) inits
  | RGen vars mins _ _ _ _ =>
    map (fun xm => match xm with
                   | (Some x, _) => Some (v x)
                   | (None, Some _) => Some 1
                   | (None, None) => None
                   end) (combine vars mins)
  end.
Definition rule_after (r : rule) (v : nat -> Z) : list (option Z) :=
  match r with
  | RDiff inits diffs _ _ =>
    map (fun ab => match ab with
                   | (Some a, Some b) => Some (value v a + value v b)
                   | _ => None
                   end) (combine inits diffs)
  | RGen _ _ result _ _ _ => map (option_map (value v)) result
  end.
Definition rule_steps (r : rule) (v : nat -> Z) : Z :=
  match r with RDiff _ _ num _ => value v num | RGen _ _ _ _ num _ => value v num end.
(** values a rule is stated for: not negative; at least the minimum *)
Definition rule_admits (r : rule) (v : nat -> Z) : Prop :=
  match r with
  | RDiff _ _ _ _ => forall x, 0 <= v x
  | RGen vars mins _ _ _ _ => forall x (q : Q), In (Some x, Some q) (combine vars mins) -> (q <= inject_Z (v x))%Q
  end.

(** the counts of a tape, left side then right side, each from its far end *)
Definition counts {Sym} (t : ctape Z Sym) : list (option Z) :=
  map k_num (rev (ct_l t)) ++ map k_num (rev (ct_r t)).
Definition same_blocks {Sym} (t t' : ctape Z Sym) : Prop :=
  ct_dir t = ct_dir t' /\ map k_sym (ct_l t) = map k_sym (ct_l t') /\ map k_sym (ct_r t) = map k_sym (ct_r t').

Lemma counts_nums {Sym} (t : ctape Z Sym) : counts t = nums t.
Proof. unfold counts, nums. now rewrite !map_rev. Qed.
Lemma mk_same {Sym} (t : ctape Z Sym) ns : length ns = length (nums t) ->
  same_blocks t (mk (shape t) ns) /\ counts (mk (shape t) ns) = ns.
Proof.
  intros H. rewrite nums_len in H. rewrite counts_nums, nums_mk by exact H. split; [|reflexivity].
  pose proof (shape_mk (shape t) ns H) as E. unfold shape in E at 1 3. unfold same_blocks. split; [|split]; congruence.
Qed.

Lemma rule_counts T {Sym St} (M : machine Sym St) Rp sh q r v : 
  match r with
  | RDiff inits diffs num seen => diff_ok T M Rp sh q inits diffs num seen
  | RGen vars mins result inf num seen => gen_ok T M Rp sh q vars mins result inf num seen
  end -> rule_admits r v ->
  exists d, trans_ok T M Rp q (mk sh (rule_before r v)) (mk sh (rule_after r v)) (rule_steps r v) d.
Proof.
  destruct r as [inits diffs num seen|vars mins result inf num seen]; intros H Hv; simpl in *.
  - exists (ed v seen).
    assert (E : map (fun ab => match ab with (Some a, Some b) => Some (value v a + value v b) | _ => None end)
                    (combine inits diffs) = addk 1 (ez v inits) diffs).
    { pose proof (do_blocks _ _ _ _ _ _ _ _ _ H) as B. clear -B.
      induction B as [|i d is ds Hb _ IH]; [reflexivity|]. unfold addk in *. cbn [combine map ez]. f_equal; [|exact IH].
      destruct i as [[p|e]|], d as [[r|]|]; simpl in Hb; try contradiction; auto.
      - destruct Hb as [_ ->]. cbn [option_map add1]. rewrite Z.mul_1_l. reflexivity.
      - destruct Hb as (x & c & z & -> & _ & ->). cbn [option_map add1]. rewrite Z.mul_1_l. reflexivity. }
    rewrite E. apply (do_run _ _ _ _ _ _ _ _ _ H). auto.
  - exists (ed v seen). apply (go_run _ _ _ _ _ _ _ _ _ _ _ H). intros x z Hin. apply Hv in Hin. now apply injZ_le.
Qed.

Lemma before_good T Sym St (M : machine Sym St) Rp k r (t : ctape Z Sym) q v :
  twf (m_init_sym M) t -> rule_ok T M Rp k r -> strip_config z_is1 q t = k -> rule_admits r v ->
  twf (m_init_sym M) (mk (shape t) (rule_before r v)).
Proof.
  intros Wt (sh & q0 & Al & H) Ek Hv. destruct (Al t q Wt Ek) as (_ & _ & Ha). apply mk_wf; [exact Wt|].
  destruct r as [inits diffs num seen|vars mins result inf num seen]; simpl.
  - pose proof (do_blocks _ _ _ _ _ _ _ _ _ H) as B. simpl in Hv. clear -Ha B Hv. revert diffs B.
    induction Ha as [|i z is ns Hi _ IH]; intros ds B; inversion B as [|? d ? ds' Hb B']; subst; cbn [map]; constructor; eauto.
    destruct i as [[p|e]|], z as [z|], d as [[|]|]; simpl in Hi, Hb; try contradiction; auto; cbn [option_map].
    + destruct Hb as [(n & -> & Hn) _]. unfold value. cbn [evv]. rewrite Qfloor_Z. lia.
    + destruct Hb as (x & c & y & -> & Hc & _). change (value v (VE (var_plus x (inject_Z c)))) with (zev v (VE (var_plus x (inject_Z c)))).
      rewrite zev_var_plus. specialize (Hv x). lia.
  - pose proof (go_blocks _ _ _ _ _ _ _ _ _ _ _ H) as B. simpl in Hv. revert Ha B Hv. clear. intros Ha B Hv.
    assert (G : forall ns l rs W, Forall2 galign l ns -> Forall2 (gblock W) l rs ->
      (forall x (q : Q), In (Some x, Some q) l -> (q <= inject_Z (v x))%Q) ->
      Forall2 (fun a b : option Z => match a, b with None, None => True | Some _, Some z => 1 <= z | _, _ => False end)
        ns (map (fun xm => match xm with
                   | (Some x, _) => Some (v x)
                   | (None, Some _) => Some 1
                   | (None, None) => None
                   end) l)).
    { intros ns0 l rs W0 HA. revert rs. induction HA as [|[x p] z l ns Hi _ IH]; intros rs HB HV;
        inversion HB as [|? r ? rs' Hb B']; subst; cbn [map]; constructor.
      - destruct x as [x|], p as [p|], z as [z|], r as [w|]; simpl in Hi, Hb; try contradiction; auto.
        2:{ apply Z.le_refl. }
        destruct Hb as (_ & _ & y & -> & Hy). specialize (HV x (inject_Z y) (or_introl eq_refl)). apply (proj1 (injZ_le _ _)) in HV. lia.
      - eapply IH; eauto. intros; apply HV; simpl; auto. }
    eapply G; eauto.
Qed.

Lemma rule_lengths T Sym St (M : machine Sym St) Rp k r (t : ctape Z Sym) q v :
  twf (m_init_sym M) t -> rule_ok T M Rp k r -> strip_config z_is1 q t = k ->
  length (rule_before r v) = length (nums t) /\ length (rule_after r v) = length (nums t).
Proof.
  intros Wt (sh & q0 & Al & H) Ek. destruct (Al t q Wt Ek) as (_ & _ & Ha).
  destruct r as [inits diffs num seen|vars mins result inf num seen]; simpl.
  - pose proof (Forall2_length' _ _ _ (do_blocks _ _ _ _ _ _ _ _ _ H)) as B. apply Forall2_length' in Ha.
    rewrite !map_length, combine_length. lia.
  - pose proof (Forall2_length' _ _ _ (go_blocks _ _ _ _ _ _ _ _ _ _ _ H)) as B. apply Forall2_length' in Ha.
    rewrite !map_length. lia.
Qed.

(** Whatever tape the prover is asked about, it does not raise; and a rule it
    returns is true: for all admitted values of the variables, in whatever
    configuration the macro machine shows the tape with the counts before the rule,
    the base machine goes in the stated, positive number of steps to the tape with
    the counts after the rule. *)
Theorem C16_rules_are_true :
  forall n m tab g, wf_ttable n m tab -> valid_setting g = true ->
  with_denoted n m tab g (fun Sym St M denotes =>
    forall next t q delta, good_tape (m_init_sym M) t -> (1 <= delta)%nat ->
    (exists c, denotes (tden (m_init_sym M) t q) c) ->
    exists nx o, prove_rule M next t q delta = Some (nx, o) /\
    forall r, o = Some r ->
    forall v, rule_admits r v ->
      exists before after, same_blocks t before /\ counts before = rule_before r v /\
      same_blocks t after /\ counts after = rule_after r v /\
      good_tape (m_init_sym M) before /\ good_tape (m_init_sym M) after /\
      forall c, denotes (tden (m_init_sym M) before q) c ->
      0 < rule_steps r v /\
      exists c', steps (table_of tab) (Z.to_nat (rule_steps r v)) c = Some c' /\
                 denotes (tden (m_init_sym M) after q) c').
Proof.
  intros n m tab g W V. refine (with_denoted_mono n m tab g _ _ (denoted_sound n m tab g W V) _).
  intros Sym St M Rp (halted & MS & SW & PU) next t q delta Wt Hd (c0 & R0).
  apply good_twf in Wt.
  destruct (prove_rule_ok False _ M Rp halted MS SW PU next t q c0 delta Wt R0 Hd) as (nx & o & E & H).
  exists nx, o. split; [exact E|]. intros r -> v Hv.
  pose proof (before_good _ _ _ _ _ _ r t q v Wt H eq_refl Hv) as Gb.
  destruct (rule_lengths _ _ _ _ _ _ r t q v Wt H eq_refl) as [L1 L2].
  destruct H as (sh & q0 & Al & H).
  destruct (Al t q Wt eq_refl) as (<- & <- & _).
  destruct (rule_counts _ _ _ _ _ r v H Hv) as (d & W2 & T2).
  destruct (mk_same t _ L1) as [B1 B2]. destruct (mk_same t _ L2) as [A1 A2].
  do 2 eexists. split; [exact B1|]. split; [exact B2|]. split; [exact A1|]. split; [exact A2|].
  split; [now apply good_twf|]. split; [now apply good_twf|].
  intros c R. destruct (T2 c R) as (P & c' & Ec & R' & _). eauto.
Qed.

(** The same for the machine without macro layers, spelled out: [tape_is t q c] says
    that configuration [c] is in state [q] and carries the run-length tape [t]. *)
Definition tape_is (t : ctape Z nat) (q : nat) (c : config) : Prop :=
  st c = q /\ exists o, hd c = o + read_pos (ct_dir t) /\
  forall p x, shows_at t p x <-> tp c (o + p) = x.
Definition symbols_below (m : nat) (t : ctape Z nat) : Prop :=
  forall b, In b (ct_l t) \/ In b (ct_r t) -> (k_sym b < m)%nat.

Lemma hden_below m h : hwf 0%nat h -> (forall b, In b h -> (k_sym b < m)%nat) -> forall i, (hden 0%nat h i < m)%nat.
Proof.
  induction 1 as [|s z h Hz H IH]; intros Hb i; simpl.
  - apply (Hb (Blk 0%nat None)). simpl; auto.
  - unfold sapp. destruct (nth_error (repeat s (Z.to_nat z)) i) eqn:E.
    + apply nth_error_In, repeat_spec in E. subst. apply (Hb (Blk s (Some z))). simpl; auto.
    + apply IH. intros; apply Hb; simpl; auto.
Qed.

Lemma tape_is_iff n m t q c : good_tape 0%nat t -> symbols_below m t -> (q < n)%nat ->
  (tape_is t q c <-> Rsimple n m (tden 0%nat t (SRun q)) c).
Proof.
  intros G Hs Hq. pose proof (proj1 (good_twf _ _) G) as W.
  assert (Hm : forall i, (d_l (tden 0%nat t (SRun q)) i < m)%nat /\ (d_r (tden 0%nat t (SRun q)) i < m)%nat).
  { destruct W as [Wl Wr]. intros i. simpl. split; apply hden_below; auto; intros b Hb; apply Hs; auto. }
  unfold tape_is, Rsimple. split.
  - intros (E & o & Ho & Hp). split; [simpl; congruence|]. split; [lia|]. split; [exact Hm|].
    exists o. split; [simpl; rewrite Ho; unfold read_pos; destruct (ct_dir t); lia|].
    intros i. split.
    + apply Hp. apply (shows_cell 0%nat t (SRun q)); [exact W|]. unfold cellC.
      destruct (Z.ltb_spec (Z.of_nat i) 0); [lia|]. now rewrite Nat2Z.id.
    + replace (o - 1 - Z.of_nat i) with (o + (- 1 - Z.of_nat i)) by lia. apply Hp.
      apply (shows_cell 0%nat t (SRun q)); [exact W|]. unfold cellC.
      destruct (Z.ltb_spec (-1 - Z.of_nat i) 0); [|lia]. f_equal. lia.
  - intros (E & _ & _ & o & Ho & Hp). simpl in E. injection E as E. split; [auto|].
    exists o. split; [rewrite Ho; simpl; unfold read_pos; destruct (ct_dir t); lia|].
    intros p x. rewrite (shows_cell 0%nat t (SRun q) p x W). unfold cellC.
    destruct (Z.ltb_spec p 0).
    + destruct (Hp (Z.to_nat (- p - 1))) as [_ H1].
      replace (o - 1 - Z.of_nat (Z.to_nat (- p - 1))) with (o + p) in H1 by lia. now rewrite H1.
    + destruct (Hp (Z.to_nat p)) as [H1 _].
      replace (o + Z.of_nat (Z.to_nat p)) with (o + p) in H1 by lia. now rewrite H1.
Qed.

Lemma same_below m (t t' : ctape Z nat) : same_blocks t t' -> symbols_below m t -> symbols_below m t'.
Proof.
  intros (_ & El & Er) H b [Hb|Hb]; apply (in_map k_sym) in Hb.
  - rewrite <- El in Hb. apply in_map_iff in Hb. destruct Hb as (b' & <- & Hb'). auto.
  - rewrite <- Er in Hb. apply in_map_iff in Hb. destruct Hb as (b' & <- & Hb'). auto.
Qed.

Lemma base_exists n m t q : good_tape 0%nat t -> symbols_below m t -> (q < n)%nat ->
  exists c, Rsimple n m (tden 0%nat t (SRun q)) c.
Proof.
  intros G Hs Hq. pose proof (proj1 (good_twf _ _) G) as W.
  exists (Cfg q (read_pos (ct_dir t)) (cellC (tden 0%nat t (SRun q)))).
  apply tape_is_iff; auto. split; [reflexivity|]. exists 0. split; [reflexivity|].
  intros p x. simpl. now apply (shows_cell 0%nat t (SRun q)).
Qed.

Theorem C16_rules_are_true_base :
  forall n m tab next t q delta, wf_ttable n m tab ->
  good_tape 0%nat t -> symbols_below m t -> (q < n)%nat -> (1 <= delta)%nat ->
  exists nx o, prove_rule (simple_machine tab) next t (SRun q) delta = Some (nx, o) /\
  forall r, o = Some r -> forall v, rule_admits r v ->
    exists before after, same_blocks t before /\ counts before = rule_before r v /\
    same_blocks t after /\ counts after = rule_after r v /\
    good_tape 0%nat before /\ good_tape 0%nat after /\
    forall c, tape_is before q c ->
    0 < rule_steps r v /\
    exists c', steps (table_of tab) (Z.to_nat (rule_steps r v)) c = Some c' /\ tape_is after q c'.
Proof.
  intros n m tab next t q delta W G Hs Hq Hd.
  destruct (C16_rules_are_true n m tab SBase W eq_refl next t (SRun q) delta G Hd (base_exists n m t q G Hs Hq))
    as (nx & o & E & H).
  exists nx, o. split; [exact E|]. intros r -> v Hv.
  destruct (H r eq_refl v Hv) as (before & after & B1 & B2 & A1 & A2 & Gb & Ga & Hr).
  exists before, after. repeat (split; [assumption|]). intros c Hc.
  destruct (Hr c) as (P & c' & Ec & R').
  - apply tape_is_iff; auto. exact (same_below m t before B1 Hs).
  - split; [exact P|]. exists c'. split; [exact Ec|]. apply (tape_is_iff n m); auto. exact (same_below m t after A1 Hs).
Qed.

(** ** C17 *)

(** Applying a proven rule to any tape with the same stripped configuration never
    raises.  A new tape is what the base machine reaches after the stated number of
    steps (with the stated last visits to each state), "infinite" means that the base
    machine never halts and that exactly the named states recur. *)
Theorem C17_applying_is_running :
  forall n m tab g, wf_ttable n m tab -> valid_setting g = true ->
  with_denoted n m tab g (fun Sym St M denotes =>
    forall next t q delta nx r, good_tape (m_init_sym M) t -> (1 <= delta)%nat ->
    (exists c, denotes (tden (m_init_sym M) t q) c) ->
    prove_rule M next t q delta = Some (nx, Some r) ->
    forall mr next' t' q' c, (0 < mr)%nat -> good_tape (m_init_sym M) t' ->
    strip_config z_is1 q' t' = strip_config z_is1 q t ->
    denotes (tden (m_init_sym M) t' q') c ->
    exists nx' o, apply_rule mr next' r t' = Some (nx', o) /\
    match o with
    | None | Some PNothing => True
    | Some (PInf states) =>
      nonhalting (table_of tab) c /\
      forall l, states = Some l -> forall x, In x l <->
        forall k, exists i d, (k <= i)%nat /\ steps (table_of tab) i c = Some d /\ st d = x
    | Some (PApply t'' k seen) =>
      good_tape (m_init_sym M) t'' /\ ct_dir t'' = ct_dir t' /\ 0 < k /\
      (exists c', steps (table_of tab) (Z.to_nat k) c = Some c' /\ denotes (tden (m_init_sym M) t'' q') c') /\
      forall l, seen = Some l -> forall x,
        match nd_get x l with
        | Some j => 0 <= j < k /\ (exists e, steps (table_of tab) (Z.to_nat j) c = Some e /\ st e = x) /\
            forall i e, j < i < k -> steps (table_of tab) (Z.to_nat i) c = Some e -> st e <> x
        | None => forall i e, 0 <= i < k -> steps (table_of tab) (Z.to_nat i) c = Some e -> st e <> x
        end
    end).
Proof.
  intros n m tab g W V. refine (with_denoted_mono n m tab g _ _ (denoted_sound n m tab g W V) _).
  intros Sym St M Rp (halted & MS & SW & PU) next t q delta nx r Wt Hd (c0 & R0) E mr next' t' q' c Hmr Wt' Es R.
  apply good_twf in Wt. apply good_twf in Wt'.
  destruct (prove_rule_ok False _ M Rp halted MS SW PU next t q c0 delta Wt R0 Hd) as (nx0 & o & E' & H).
  rewrite E in E'. injection E' as <- <-.
  destruct (apply_rule_ok _ M Rp mr next' _ r t' q' c Hmr H Wt' Es R) as (nx' & o & Ea & Ho).
  exists nx', o. split; [exact Ea|]. destruct o as [[|t'' k seen|states]|]; simpl in Ho; auto.
  - destruct Ho as (H1 & H2 & H3 & H4 & H5). split; [now apply good_twf|]. split; [exact H2|]. split; [exact H3|].
    split; [exact H4|]. intros l -> x. destruct H5 as [_ H5]. destruct (H5 x) as [A B].
    destruct (nd_get x l) as [j|]; simpl in B.
    + destruct B as (B1 & B2 & B3). split; [lia|]. split; [exact B2|]. intros i e Hi. apply B3. lia.
    + intros i e Hi. apply B. lia.
  - destruct Ho as (H1 & H2 & _). split; [exact H1|]. intros l -> x. exact (H2 x).
Qed.

(** ** C18 *)

(** With the prover the simulator never raises, and a halt is reported only as the
    machine itself halts. *)
Theorem C18_halting_exact :
  forall n m tab g mc mr next d, wf_ttable n m tab -> valid_setting g = true -> (0 < mr)%nat ->
  exists r, run_prover tab g mc mr next d = Some r /\
    (r_op r = HALT \/ r_op r = UNDEFINED ->
     exists from_symbol from_state rest tape,
       r_details r = DCell from_symbol from_state :: rest /\
       0 <= r_steps r /\ 0 <= r_nonzeros r /\
       halts_at (table_of tab) initial (Z.to_nat (r_steps r)) from_state from_symbol
                (cond_eqb (r_op r) HALT) tape /\
       score tape (Z.to_nat (r_nonzeros r))).
Proof.
  intros n m tab g mc mr next d W V Hmr.
  destruct (run_prover_ok n m tab g mc mr next d False W V Hmr ltac:(tauto)) as (r & E & H & _).
  exists r. split; [exact E|]. unfold report_ok in H. intros [Ho|Ho]; rewrite Ho in *;
    destruct H as (q & a & ds & tape & D & S1 & S2 & Hh & Sc & _); exists a, q, ds, tape; auto.
Qed.

(** Infinite verdicts, in particular those of the prover, are true (for a repeat
    inside a macro cell see C12), and the states reported to recur are exactly
    those visited infinitely often. *)
Theorem C18_infinite_verdicts_partial :
  forall n m tab g mc mr next d r, wf_ttable n m tab -> valid_setting g = true -> (0 < mr)%nat ->
  run_prover tab g mc mr next d = Some r -> r_op r = INF_REPEAT ->
  exists reason states, r_inf r = Some (reason, states) /\
    (reason <> INF_MACRO_STEP \/ repeat_trusted n m g -> nonhalting (table_of tab) initial) /\
    (reason <> INF_MACRO_STEP -> forall l, states = Some l -> forall q, In q l <->
       forall k, exists i c, (k <= i)%nat /\ steps (table_of tab) i initial = Some c /\ st c = q).
Proof.
  intros n m tab g mc mr next d r W V Hmr E Ho.
  destruct (run_prover_ok n m tab g mc mr next d False W V Hmr ltac:(tauto)) as (r' & E' & H & _).
  assert (r' = r) by congruence. subst r'. unfold report_ok in H. rewrite Ho in H.
  destruct H as (reason & states & Hi & H & Hs). exists reason, states. split; [exact Hi|]. split.
  - intros [Hr|Hr]; [apply H; congruence|].
    destruct (run_prover_ok n m tab g mc mr next d True W V Hmr ltac:(auto)) as (r' & E2 & _ & H2).
    assert (r' = r) by congruence. subst r'. specialize (H2 I). unfold report_ok in H2. rewrite Ho in H2.
    destruct H2 as (? & ? & _ & H2 & _). apply H2. auto.
  - intros Hr l -> q. exact (proj1 (Hs Hr) q).
Qed.

(** A simulation that is still going shows the machine after the reported number
    of steps; also the last visit to each state. *)
Theorem C18_running_snapshot :
  forall n m tab g mc mr next d r, wf_ttable n m tab -> valid_setting g = true -> (0 < mr)%nat ->
  run_prover tab g mc mr next d = Some r -> r_op r = RUNNING \/ r_op r = GAVE_UP ->
  0 <= r_steps r /\ 0 <= r_nonzeros r /\
  exists c, steps (table_of tab) (Z.to_nat (r_steps r)) initial = Some c /\
            score (tp c) (Z.to_nat (r_nonzeros r)) /\
            forall seen, r_seen r = Some seen -> forall q,
              match nd_get q seen with
              | Some j => 0 <= j < r_steps r /\
                  (exists e, steps (table_of tab) (Z.to_nat j) initial = Some e /\ st e = q) /\
                  forall i e, j < i < r_steps r ->
                    steps (table_of tab) (Z.to_nat i) initial = Some e -> st e <> q
              | None => forall i e, 0 <= i < r_steps r ->
                    steps (table_of tab) (Z.to_nat i) initial = Some e -> st e <> q
              end.
Proof.
  intros n m tab g mc mr next d r W V Hmr E Ho.
  destruct (run_prover_ok n m tab g mc mr next d False W V Hmr ltac:(tauto)) as (r' & E' & H & _).
  assert (r' = r) by congruence. subst r'. unfold report_ok in H.
  destruct Ho as [Ho|Ho]; rewrite Ho in H; destruct H as (S0 & N0 & c & Ec & Sc & Hs);
    (split; [exact S0|]; split; [exact N0|]; exists c; split; [exact Ec|]; split; [exact Sc|];
     intros seen Es q; rewrite Es in Hs; destruct (Hs q) as [H1 H2];
     destruct (nd_get q seen) as [j|]; simpl in H2;
     [destruct H2 as (Hj & Hv & Hl); split; [lia|]; split; [exact Hv|];
      intros i e Hi; apply Hl; lia
     |intros i e Hi; apply H2; lia]).
Qed.

(** Seeking past the halt of a machine finds it, unless a block is given up. *)
Theorem C18_seek_finds_halt :
  forall n m tab g mc mr next z t q a b tape, wf_ttable n m tab -> valid_setting g = true -> (0 < mr)%nat ->
  repeat_trusted n m g ->
  halts_at (table_of tab) initial t q a b tape -> Z.of_nat t <= z ->
  exists r, run_prover tab g mc mr next (Seek z) = Some r /\
    (r_op r = GAVE_UP \/
     r_op r = (if b then HALT else UNDEFINED) /\ r_steps r = Z.of_nat t).
Proof.
  intros n m tab g mc mr next z t q a b tape W V Hmr Tr Hh Hz.
  destruct (run_prover_ok n m tab g mc mr next (Seek z) True W V Hmr ltac:(auto)) as (r & E & _ & H).
  specialize (H I). exists r. split; [exact E|].
  pose proof (run_prover_seek n m tab g mc mr next z r W V Hmr E) as Hrun.
  unfold report_ok in H. destruct (r_op r) eqn:Ho.
  - exfalso. destruct H as (S0 & _ & c & Ec & _). specialize (Hrun eq_refl).
    destruct Hh as (k & c' & w & dd & -> & Ek & -> & -> & HM & _).
    assert (Hs : steps (table_of tab) (S k) initial = None).
    { replace (S k) with (k + 1)%nat by lia. rewrite steps_add, Ek. simpl. unfold step. now rewrite HM. }
    destruct (steps_le (table_of tab) (Z.to_nat (r_steps r)) (S k) initial c ltac:(lia) Ec) as (e & Ee).
    congruence.
  - right. destruct H as (q' & a' & ds & tape' & _ & S0 & _ & Hh' & _).
    destruct (halts_at_fun _ _ _ _ _ _ _ _ _ _ _ _ Hh Hh') as (-> & _ & _ & -> & _).
    simpl. split; auto. lia.
  - exfalso. destruct H as (rs & st & _ & H & _). apply (halts_not_nonhalting _ _ _ _ _ _ _ Hh). auto.
  - right. destruct H as (q' & a' & ds & tape' & _ & S0 & _ & Hh' & _).
    destruct (halts_at_fun _ _ _ _ _ _ _ _ _ _ _ _ Hh Hh') as (-> & _ & _ & -> & _).
    simpl. split; auto. lia.
  - left. reflexivity.
Qed.

(** With max_num_reps = 0 general rules fail an assertion, so the hypothesis on
    [mr] is needed. *)
Theorem C17_zero_reps_refuted :
  forall vars mins result inf num seen (t : ctape Z nat),
    apply_general_rule 0 vars mins result inf num seen t = None.
Proof. reflexivity. Qed.

(** ** Examples *)

(** the five-state champion *)
Definition bb5_rows : list quint :=
 [Quint 0 0 (Some 1%nat) R (SRun 1); Quint 0 1 (Some 1%nat) L (SRun 2);
  Quint 1 0 (Some 1%nat) R (SRun 2); Quint 1 1 (Some 1%nat) R (SRun 1);
  Quint 2 0 (Some 1%nat) R (SRun 3); Quint 2 1 (Some 0%nat) L (SRun 4);
  Quint 3 0 (Some 1%nat) L (SRun 0); Quint 3 1 (Some 1%nat) L (SRun 3);
  Quint 4 0 (Some 1%nat) R SHalt; Quint 4 1 (Some 0%nat) L (SRun 0)].
Definition bb5 := match tm_from_quintuples bb5_rows 5 2 with Some t => t | None => [] end.
Lemma bb5_wf : wf_ttable 5 2 bb5.
Proof. apply (quintuples_wf bb5_rows); [lia|lia|vm_compute; reflexivity]. Qed.

(** its simulation in blocks of three takes 370 loops; with C18 this proves that it
    halts after 47,176,870 steps leaving 4098 ones *)
Example C18_example :
  exists tape, halts_at (table_of bb5) initial (Z.to_nat 47176870) 4 0 true tape /\ score tape (Z.to_nat 4098).
Proof.
  destruct (C18_halting_exact 5 2 bb5 (SBlock 3 0 1000) 100 10 0 (LoopSeek 1000) bb5_wf eq_refl ltac:(lia)) as (r & E & H).
  vm_compute in E. injection E as <-.
  destruct (H (or_introl eq_refl)) as (a & q & rest & tape & D & _ & _ & Hh & Sc).
  injection D as <- <- <-. exists tape. split; [exact Hh|exact Sc].
Qed.

(** A bouncer: A: 0 -> 1LB, 1 -> 1RA; B: 0 -> 1RA, 1 -> 1LB.  The prover finds that
    it never halts and that both states recur. *)
Definition bouncer_rows : list quint :=
 [Quint 0 0 (Some 1%nat) L (SRun 1); Quint 0 1 (Some 1%nat) R (SRun 0);
  Quint 1 0 (Some 1%nat) R (SRun 0); Quint 1 1 (Some 1%nat) L (SRun 1)].
Definition bouncer := match tm_from_quintuples bouncer_rows 2 2 with Some t => t | None => [] end.
Example C18_example_infinite :
  match run_prover bouncer SBase 100 10 0 (Seek 1000) with
  | Some r => r_op r = INF_REPEAT /\ r_inf r = Some (INF_PROOF_SYSTEM, Some [0%nat; 1%nat])
  | None => False
  end.
Proof. vm_compute. auto. Qed.

(** the rule proved for it on 0* 1 (head here) 1^6 0*: in [2 x + 5] steps [x + 1]
    ones to the right become [x + 3] *)
Definition c16_tape : ctape Z nat := CTape R [Blk 1%nat (Some 1); Blk 0%nat None] [Blk 1%nat (Some 6); Blk 0%nat None].
Lemma c16_good : good_tape 0%nat c16_tape /\ symbols_below 2 c16_tape.
Proof.
  split.
  - apply good_twf. split; repeat constructor; lia.
  - intros b H. simpl in H. repeat destruct H as [H|H]; subst; simpl; try lia; contradiction.
Qed.
Example C16_example :
  exists nx r, prove_rule (simple_machine bouncer) 7 c16_tape (SRun 0) 4 = Some (nx, Some r) /\
    rule_admits r (fun _ => 5) /\
    rule_before r (fun _ => 5) = [None; Some 1; None; Some 6] /\
    rule_after r (fun _ => 5) = [None; Some 1; None; Some 8] /\
    rule_steps r (fun _ => 5) = 15.
Proof.
  do 2 eexists. split; [vm_compute; reflexivity|]. split; [intros x; lia|]. vm_compute. repeat split.
Qed.

(** A mover: A: 1 -> 2RB; B: 1 -> 1RB, 3 -> 3RB, 0 -> 3LC; C: 1 -> 1LC, 3 -> 3LC, 2 -> 2RA.
    The rule, proved on 2^5 (head here) 1^9 3^7, takes a 1 away and adds a 2 and a 3; on
    2^5 1^90 3^7 it is applied 89 times at once. *)
Definition mover_rows : list quint :=
 [Quint 0 1 (Some 2%nat) R (SRun 1);
  Quint 1 1 (Some 1%nat) R (SRun 1); Quint 1 3 (Some 3%nat) R (SRun 1); Quint 1 0 (Some 3%nat) L (SRun 2);
  Quint 2 1 (Some 1%nat) L (SRun 2); Quint 2 3 (Some 3%nat) L (SRun 2); Quint 2 2 (Some 2%nat) R (SRun 0)].
Definition mover := match tm_from_quintuples mover_rows 3 4 with Some t => t | None => [] end.
Definition c17_tape (k n j : Z) : ctape Z nat :=
  CTape R [Blk 2%nat (Some k); Blk 0%nat None] [Blk 1%nat (Some n); Blk 3%nat (Some j); Blk 0%nat None].
Example C17_example :
  exists nx r k seen, prove_rule (simple_machine mover) 7 (c17_tape 5 9 7) (SRun 0) 7 = Some (nx, Some r) /\
    strip_config z_is1 (SRun 0) (c17_tape 5 90 7) = strip_config z_is1 (SRun 0) (c17_tape 5 9 7) /\
    apply_rule 10 nx r (c17_tape 5 90 7) = Some (11%nat, Some (PApply (c17_tape 94 1 96) k (Some seen))) /\ k = 17355.
Proof. do 4 eexists. split; [vm_compute; reflexivity|]. split; [vm_compute; reflexivity|]. split; [vm_compute; reflexivity|]. reflexivity. Qed.

Print Assumptions C16_rules_are_true.
Print Assumptions C16_rules_are_true_base.
Print Assumptions C17_applying_is_running.
Print Assumptions C18_halting_exact.
Print Assumptions C18_infinite_verdicts_partial.
Print Assumptions C18_running_snapshot.
Print Assumptions C18_seek_finds_halt.
Print Assumptions C18_example.
