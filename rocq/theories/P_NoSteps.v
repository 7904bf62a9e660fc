(** * With [--no-steps] the simulator makes the same run *)
Require Import ZArith List Lia Bool Arith QArith.
From Verif Require Import Spec_TM M_Turing_Machine M_Expr M_Tape M_Simulator M_Settings M_Prover M_ProverRun M_LinRecur M_Pipeline
  M_NoSteps P_Rename.
Import ListNotations.
Open Scope Z_scope.

(** ** the counter of variables only names the variables *)
Definition sh (a : nat) : nat -> nat := Nat.add a.
Lemma sh_mono a : forall x y, (x < y)%nat -> (sh a x < sh a y)%nat.
Proof. unfold sh. lia. Qed.
Notation rnn f := (option_map (rn_v f)).

Lemma gen_nums_sh a ns : forall next, gen_nums (sh a next) ns =
  option_map (fun x => let '(nx, vs, m) := x in (sh a nx, map (rnn (sh a)) vs, rn_d (sh a) m)) (gen_nums next ns).
Proof.
  induction ns as [|[z|] ns IH]; intros next; [reflexivity| |].
  - cbn [gen_nums]. destruct (z =? 1).
    { rewrite IH. destruct (gen_nums next ns) as [[[nx vs] m]|]; reflexivity. }
    destruct (z =? 0); [reflexivity|]. replace (S (sh a next)) with (sh a (S next)) by (unfold sh; lia). rewrite IH.
    destruct (gen_nums (S next) ns) as [[[nx vs] m]|]; reflexivity.
  - cbn [gen_nums]. rewrite IH. destruct (gen_nums next ns) as [[[nx vs] m]|]; reflexivity.
Qed.

Section Apply.
  Variable f : nat -> nat.
  Hypothesis mono : forall x y, (x < y)%nat -> (f x < f y)%nat.
  Context {Sym : Type} (mr : nat).

  Lemma ndiff_scan_rn inits : forall diffs ns i lim,
    ndiff_scan i (combine (combine (map (rnn f) inits) (map (rnn f) diffs)) ns) lim = ndiff_scan i (combine (combine inits diffs) ns) lim.
  Proof.
    induction inits as [|v inits IH]; intros [|d diffs] [|n ns] i lim; try reflexivity.
    cbn [map combine]. destruct v as [[q|e]|]; try (cbn [option_map rn_v ndiff_scan]; apply IH).
    cbn [option_map rn_v ndiff_scan]. rewrite (variable_restricted_rn f). change (e_const (rn_e f e)) with (e_const e).
    destruct (variable_restricted e) as [x|]; [|reflexivity]. cbn [option_map].
    destruct (q_int (e_const e)) as [c|]; [|reflexivity]. destruct n as [n|]; [|reflexivity].
    destruct (n - c <? 0); [reflexivity|]. destruct d as [d|]; [|reflexivity]. cbn [option_map]. rewrite (v_int_rn f).
    destruct (v_int d) as [dz|]; [|reflexivity]. apply IH.
  Qed.
  Lemma diff_nums_rn reps li final diffs : forall ns i,
    diff_nums i reps li final (combine (map (rnn f) diffs) ns) = diff_nums i reps li final (combine diffs ns).
  Proof.
    induction diffs as [|d diffs IH]; intros [|n ns] i; try reflexivity. cbn [map combine diff_nums]. rewrite IH.
    destruct (diff_nums (S i) reps li final (combine diffs ns)) as [l|]; [|reflexivity]. destruct n as [n|]; [|reflexivity].
    destruct (Nat.eqb i li); [reflexivity|]. destruct d as [d|]; [|reflexivity]. cbn [option_map]. now rewrite (v_int_rn f).
  Qed.
  Lemma fits_min_rn vars : forall mins cur asg,
    fits_min (combine (combine (map (option_map f) vars) mins) cur) (rn_s f asg) =
    option_map (option_map (rn_s f)) (fits_min (combine (combine vars mins) cur) asg).
  Proof.
    induction vars as [|x vars IH]; intros [|m mins] [|z cur] asg; try reflexivity.
    cbn [map combine]. destruct x as [x|]; cbn [option_map fits_min].
    - destruct m as [m|]; [|reflexivity]. destruct z as [z|]; [|reflexivity]. destruct (always_ge (VS (inject_Z z)) (VS m)); [|reflexivity].
      rewrite <- IH. unfold rn_s. rewrite map_app. reflexivity.
    - apply IH.
  Qed.
  Lemma ngen_reps_rn fuel vars mins result : forall cur b,
    ngen_reps fuel (map (option_map f) vars) mins (map (rnn f) result) cur b = ngen_reps fuel vars mins result cur b.
  Proof.
    induction fuel as [|fuel IH]; intros cur b; cbn [ngen_reps]; change (@nil (nat * val)) with (rn_s f []) at 1; rewrite fits_min_rn;
      destruct (fits_min (combine (combine vars mins) cur) []) as [[asg|]|]; try reflexivity.
    cbn [option_map].
    assert (E : map_opt (inf_opt (fun v => match v_subst v (rn_s f asg) with Some w => v_int w | None => None end)) (map (rnn f) result) =
                map_opt (inf_opt (fun v => match v_subst v asg with Some w => v_int w | None => None end)) result).
    { rewrite map_opt_map. clear IH. induction result as [|r result IHr]; [reflexivity|]. cbn [map_opt]. rewrite IHr. 
      destruct r as [v|]; [|reflexivity]. cbn [option_map inf_opt]. rewrite (v_subst_rn f mono). destruct (v_subst v asg) as [w|]; [|reflexivity].
      cbn [option_map]. now rewrite (v_int_rn f). }
    rewrite E. destruct (map_opt _ result) as [nx|]; [|reflexivity]. destruct (znums_eqb nx cur); [reflexivity|apply IH].
  Qed.
  Lemma napply_rule_rn r (t : ctape Z Sym) : napply_rule mr (rn_rule f r) t = napply_rule mr r t.
  Proof.
    destruct r as [i d|vars mins result inf]; cbn [rn_rule napply_rule].
    - unfold napply_diff_rule. rewrite ndiff_scan_rn. destruct (ndiff_scan 0 _ None) as [| |[[[reps li] final]|]]; try reflexivity.
      destruct (reps <=? 0); [reflexivity|]. now rewrite diff_nums_rn.
    - unfold napply_general_rule. destruct mr as [|n]; [reflexivity|]. rewrite ngen_reps_rn. change (@nil (nat * val)) with (rn_s f []) at 1.
      rewrite fits_min_rn. destruct (fits_min (combine (combine vars mins) (nums t)) []) as [[asg|]|]; reflexivity.
  Qed.
End Apply.

Section Machine.
  Context {Sym St : Type} (M : machine Sym St) (mc mr : nat).

  Lemma nprove_rule_sh a next t q d : nprove_rule M (sh a next) t q d =
    option_map (fun x => (sh a (fst x), option_map (rn_rule (sh a)) (snd x))) (nprove_rule M next t q d).
  Proof.
    pose proof (sh_mono a) as mono. unfold nprove_rule. rewrite gen_nums_sh. destruct (gen_nums next (nums t)) as [[[nx i] m]|]; [|reflexivity]. cbn [option_map].
    assert (E0 : ngen_sim0 t q (map (rnn (sh a)) i) = rn_sim (sh a) (ngen_sim0 t q i)).
    { unfold ngen_sim0, rn_sim. cbn [s_tape s_state s_dir s_steps s_loops s_op s_details s_seen s_inf s_rules]. now rewrite mk_rn. }
    rewrite E0, (ngen_loop_rn _ mono). destruct (ngen_loop M d (ngen_sim0 t q i) m) as [| |[s m']]; [reflexivity|reflexivity|].
    change (s_state (rn_sim (sh a) s)) with (s_state s). change (s_tape (rn_sim (sh a) s)) with (rn_tape (sh a) (s_tape s)).
    rewrite (strip_rn _ mono), nums_rn. destruct (negb (key_eqb M (strip_config v_is1 (s_state s) (s_tape s)) (strip_config z_is1 q t))); [reflexivity|]. cbv zeta.
    rewrite (diffs_rn _ mono), forallb_map.
    assert (E1 : forall l, forallb (fun x => num_scalar (rnn (sh a) x)) l = forallb num_scalar l).
    { induction l as [|x l IH]; [reflexivity|]. cbn [forallb]. now rewrite num_scalar_rn, IH. }
    rewrite E1. destruct (forallb num_scalar (map diff_num (combine (nums (s_tape s)) i))).
    - rewrite (nmake_diff_rn _ mono). destruct (nmake_diff i (map diff_num (combine (nums (s_tape s)) i)) m'); reflexivity.
    - rewrite (nmake_gen_rn _ mono). destruct (nmake_gen i (nums (s_tape s)) m'); reflexivity.
  Qed.

  (** rules that do the same to every tape *)
  Definition req (r r' : nrule) : Prop := forall t : ctape Z Sym, napply_rule mr r t = napply_rule mr r' t.
  Definition oreq (a b : option nrule) : Prop :=
    match a, b with None, None => True | Some r, Some r' => req r r' | _, _ => False end.
  Lemma nprove_rule_next n1 n2 t q d :
    match nprove_rule M n1 t q d, nprove_rule M n2 t q d with
    | None, None => True
    | Some (_, a), Some (_, b) => oreq a b
    | _, _ => False
    end.
  Proof.
    replace n1 with (sh n1 0) by (unfold sh; lia). replace n2 with (sh n2 0) by (unfold sh; lia).
    rewrite !nprove_rule_sh. destruct (nprove_rule M 0 t q d) as [[nx [r|]]|]; cbn; auto.
    intros t'. now rewrite !napply_rule_rn by apply sh_mono.
  Qed.

  (** ** what is forgotten *)
  Definition forget_inf (i : option (inf_reason * option (list nat))) :=
    match i with Some (INF_PROOF_SYSTEM, _) => Some (INF_PROOF_SYSTEM, None) | x => x end.
  Definition forget {N} (z : N) (s : sim N Sym St) : sim N Sym St :=
    Sim (s_tape s) (s_state s) (s_dir s) z (s_loops s) (s_op s) (s_details s) None (forget_inf (s_inf s)) (s_rules s).
  Lemma move_forget {N} (O : numops N) z s s' : sim_move O M s = Some s' -> nsim_move O M (forget z s) = Some (forget z s').
  Proof.
    unfold sim_move, nsim_move. cbn [forget s_tape s_state s_dir s_steps s_loops s_seen s_inf s_rules].
    destruct (ct_top (s_tape s)) as [b|]; [|discriminate]. destruct (m_trans M (k_sym b) (s_state s) (s_dir s)) as [t|]; [|discriminate].
    destruct (cond_eqb (t_cond t) INF_REPEAT); [intros [= <-]; reflexivity|].
    destruct (m_st_eqb M (t_state t) (s_state s) && dir_eqb (t_dir t) (s_dir s) && cond_eqb (t_cond t) RUNNING).
    - destruct (apply_chain_move O (m_sym_eqb M) (s_tape s) (t_sym t)) as [[tape [n|]]|]; [| |discriminate]; intros [= <-]; reflexivity.
    - destruct (negb (cond_eqb (t_cond t) GAVE_UP)); [|intros [= <-]; reflexivity].
      destruct (apply_single_move O (m_sym_eqb M) (s_tape s) (t_sym t) (t_dir t)); [|discriminate]. intros [= <-]; reflexivity.
  Qed.
  Lemma gen_loop_forget z d : forall s m,
    match gen_loop M d s m with
    | PExn => True
    | PFail => ngen_loop M d (forget z s) m = PFail
    | POk (s', m') => ngen_loop M d (forget z s) m = POk (forget z s', m')
    end.
  Proof.
    induction d as [|d IH]; intros s m; [reflexivity|]. cbn [gen_loop ngen_loop]. change (s_tape (forget z s)) with (s_tape s).
    destruct (ct_top (s_tape s)) as [b|]; [|exact I]. destruct (num_le0 (k_num b)); [reflexivity|].
    change (loop_inc (forget z s)) with (forget z (loop_inc s)).
    destruct (sim_move vops M (loop_inc s)) as [s'|] eqn:E; [|exact I]. rewrite (move_forget _ z _ _ E).
    change (s_op (forget z s')) with (s_op s'). change (s_tape (forget z s')) with (s_tape s').
    destruct (negb (cond_eqb (s_op s') RUNNING)); [reflexivity|]. destruct (update_min (nums (s_tape s')) m) as [| |m']; [exact I|reflexivity|].
    apply IH.
  Qed.
  Definition erase (r : rule) : nrule :=
    match r with RDiff i d _ _ => NDiff i d | RGen vars mins result inf _ _ => NGen vars mins result inf end.
  Lemma prove_erase next t q d nx o : prove_rule M next t q d = Some (nx, o) -> nprove_rule M next t q d = Some (nx, option_map erase o).
  Proof.
    unfold prove_rule, nprove_rule. destruct (gen_nums next (nums t)) as [[[nx' i] m]|]; [|discriminate].
    pose proof (gen_loop_forget (VE (Expr [] 0)) d (gen_sim0 t q i) m) as H. change (forget (VE (Expr [] 0)) (gen_sim0 t q i)) with (ngen_sim0 t q i) in H.
    destruct (gen_loop M d (gen_sim0 t q i) m) as [| |[s m']]; [discriminate|rewrite H; intros [= <- <-]; reflexivity|]. rewrite H.
    change (s_state (forget (VE (Expr [] 0)) s)) with (s_state s). change (s_tape (forget (VE (Expr [] 0)) s)) with (s_tape s).
    destruct (negb _); [intros [= <- <-]; reflexivity|]. cbv zeta. destruct (s_seen s) as [seen|]; [|discriminate].
    destruct (forallb num_scalar _).
    - unfold make_diff, nmake_diff. destruct (map_opt (tighten m') i) as [l|]; [|discriminate].
      destruct (map_opt _ (map diff_num _)) as [d'|]; [|discriminate]. destruct (v_subst (s_steps s) _); [|discriminate].
      destruct (seen_map_opt _ seen); [|discriminate]. intros [= <- <-]. reflexivity.
    - unfold make_gen, nmake_gen. destruct (map_opt (gen_entry m') i) as [l|]; [|discriminate].
      destruct (map_opt _ (nums (s_tape s))) as [d'|]; [|discriminate]. destruct (v_subst (s_steps s) _); [|discriminate].
      destruct (seen_map_opt _ seen); [|discriminate]. destruct (forallb linear_shape _); [discriminate|].
      destruct (forallb (vars_valid _) d'); [|discriminate]. intros [= <- <-]. reflexivity.
  Qed.
  Definition forget_result (r : prover_result Z Sym) : prover_result Z Sym :=
    match r with PNothing => PNothing | PInf _ => PInf None | PApply t _ _ => PApply t 0 None end.
  Lemma diff_scan_forget bs : forall i lim vals,
    match diff_scan i bs lim vals with
    | PExn => True
    | PFail => ndiff_scan i bs lim = PFail
    | POk (l, _) => ndiff_scan i bs lim = POk l
    end.
  Proof.
    induction bs as [|[[v d] n] bs IH]; intros i lim vals; [reflexivity|]. destruct v as [[q|e]|]; try (cbn [diff_scan ndiff_scan]; apply IH).
    cbn [diff_scan ndiff_scan]. destruct (variable_restricted e); [|exact I]. destruct (q_int (e_const e)) as [c|]; [|exact I].
    destruct n as [n|]; [|exact I]. destruct (n - c <? 0); [reflexivity|]. destruct d as [d|]; [|exact I]. destruct (v_int d); [|exact I]. apply IH.
  Qed.
  Lemma gen_reps_forget vars mins result steps fuel : forall cur acc last g,
    gen_reps fuel vars mins result steps cur acc last = Some g ->
    ngen_reps fuel vars mins result cur (match last with Some _ => true | None => false end) =
    Some (match g with GInf => NInf | GDone cur _ last => NDone cur (match last with Some _ => true | None => false end) end).
  Proof.
    induction fuel as [|fuel IH]; intros cur acc last g; cbn [gen_reps ngen_reps];
      destruct (fits_min (combine (combine vars mins) cur) []) as [[asg|]|]; try discriminate; try (intros [= <-]; reflexivity).
    destruct (v_subst steps asg) as [ns|]; [|discriminate]. destruct (map_opt _ result) as [nx|]; [|discriminate].
    destruct (v_int ns) as [n|]; [|discriminate]. destruct (znums_eqb nx cur); [intros [= <-]; reflexivity|]. apply IH.
  Qed.
  Lemma apply_erase next r t nx o : apply_rule mr next r t = Some (nx, o) -> napply_rule mr (erase r) t = Some (option_map forget_result o).
  Proof.
    destruct r as [i d steps seen|vars mins result inf steps seen]; cbn [apply_rule erase napply_rule].
    - unfold apply_diff_rule, napply_diff_rule.
      pose proof (diff_scan_forget (combine (combine i d) (nums t)) 0 None []) as H.
      destruct (diff_scan 0 (combine (combine i d) (nums t)) None []) as [| |[[[[reps li] final]|] vals]]; [discriminate| | |]; rewrite H.
      + intros [= <- <-]. reflexivity.
      + destruct (reps <=? 0); [intros [= <- <-]; reflexivity|]. cbv zeta. destruct (v_subst steps _) as [this|]; [|discriminate].
        destruct (series_sum this next _) as [total|]; [|discriminate]. destruct (v_int total); [|discriminate]. destruct (seen_map_opt _ seen); [|discriminate].
        destruct (diff_nums 0 reps li final (combine d (nums t))); [|discriminate]. intros [= <- <-]. reflexivity.
      + intros [= <- <-]. reflexivity.
    - unfold apply_general_rule, napply_general_rule. destruct mr as [|k]; [discriminate|].
      destruct (fits_min (combine (combine vars mins) (nums t)) []) as [fits|]; [|discriminate].
      destruct (inf && _); [intros [= <- <-]; reflexivity|].
      destruct (gen_reps (S k) vars mins result steps (nums t) 0 None) as [g|] eqn:E; [|discriminate].
      rewrite (gen_reps_forget _ _ _ _ _ _ _ None _ E).
      destruct g as [|cur acc [last|]]; try (intros [= <- <-]; reflexivity).
      destruct seen as [|kv seen]; [intros [= <- <-]; reflexivity|].
      destruct (seen_map_opt _ _); [|discriminate]. intros [= <- <-]. reflexivity.
  Qed.

  (** ** the same run *)
  Definition rules_rel (a : list (key (Sym:=Sym) (St:=St) * rule)) (b : list (key (Sym:=Sym) (St:=St) * nrule)) : Prop :=
    Forall2 (fun x y => fst x = fst y /\ req (erase (snd x)) (snd y)) a b.
  Definition prel (p : prover (Sym:=Sym) (St:=St)) (p' : nprover (Sym:=Sym) (St:=St)) : Prop :=
    rules_rel (p_rules p) (np_rules p') /\ p_past p = np_past p'.
  Lemma kget_rel k a b : rules_rel a b ->
    match kget M k a, kget M k b with None, None => True | Some r, Some r' => req (erase r) r' | _, _ => False end.
  Proof.
    induction 1 as [|[k1 r1] [k2 r2] a b [E1 E2] H IH]; [exact I|]. cbn [kget fst snd] in *. subst k2. destruct (key_eqb M k k1); [exact E2|exact IH].
  Qed.
  Lemma kset_rel k r r' a b : req (erase r) r' -> rules_rel a b -> rules_rel (kset M k r a) (kset M k r' b).
  Proof.
    intros Hr. induction 1 as [|[k1 r1] [k2 r2] a b [E1 E2] H IH]; cbn [kset fst snd] in *.
    - constructor; [split; auto|constructor].
    - subst k2. destruct (key_eqb M k k1); constructor; auto.
  Qed.
  Lemma lap_rel p p' t q loop p1 r : prel p p' -> log_and_apply M mc mr p t q loop = Some (p1, r) ->
    exists p1', nlog_and_apply M mc mr p' t q loop = Some (p1', forget_result r) /\ prel p1 p1'.
  Proof.
    intros [Hr Hp]. unfold log_and_apply, nlog_and_apply. rewrite <- Hp. pose proof (kget_rel (strip_config z_is1 q t) _ _ Hr) as K.
    destruct (kget M (strip_config z_is1 q t) (p_rules p)) as [ru|], (kget M (strip_config z_is1 q t) (np_rules p')) as [ru'|]; try contradiction.
    - destruct (apply_rule mr (p_next p) ru t) as [[nx [res|]]|] eqn:E; [| |discriminate]; apply apply_erase in E; rewrite (K t) in E; rewrite E; intros [= <- <-];
        eexists; (split; [reflexivity|]); split; auto.
    - destruct (log_config _ loop) as [[|] pc'] eqn:L.
      + cbn [p_next p_past p_rules np_next np_past np_rules].
        set (delta := match last_loop pc' with Some l => (loop - l)%nat | None => 0%nat end).
        pose proof (nprove_rule_next (p_next p) (np_next p') t q delta) as N.
        destruct (prove_rule M (p_next p) t q delta) as [[nx [ru|]]|] eqn:E; [| |discriminate]; apply prove_erase in E; rewrite E in N;
          destruct (nprove_rule M (np_next p') t q delta) as [[nx' [ru'|]]|]; cbn [option_map oreq] in N; try contradiction.
        * destruct (apply_rule mr nx ru t) as [[nx2 res]|] eqn:E2; [|discriminate]. apply apply_erase in E2. rewrite (N t) in E2. rewrite E2.
          intros [= <- <-]. eexists. split; [destruct res; reflexivity|]. split; cbn [add_rule nadd_rule p_rules p_past np_rules np_past]; auto using kset_rel.
        * intros [= <- <-]. eexists. split; [reflexivity|]. split; auto.
      + cbn [p_past np_past p_rules np_rules]; destruct (Nat.ltb _ _); intros [= <- <-]; eexists; (split; [reflexivity|]); split; auto.
  Qed.
  Definition psrel (a : prover (Sym:=Sym) (St:=St) * sim Z Sym St) (b : nprover (Sym:=Sym) (St:=St) * sim Z Sym St) : Prop :=
    prel (fst a) (fst b) /\ snd b = forget 0 (snd a).
  Lemma step_rel a b a' : psrel a b -> sim_step zops M (log_and_apply M mc mr) a = Some a' ->
    exists b', nsim_step zops M (nlog_and_apply M mc mr) b = Some b' /\ psrel a' b'.
  Proof.
    destruct a as [p s], b as [p' s']. intros [Hp Hs]. cbn [fst snd] in *. subst s'. unfold sim_step, nsim_step.
    change (s_op (forget 0 s)) with (s_op s). destruct (negb (cond_eqb (s_op s) RUNNING)).
    { intros [= <-]. eexists. split; [reflexivity|]. split; auto. }
    cbv zeta. change (loop_inc (forget 0 s)) with (forget 0 (loop_inc s)). 
    change (s_tape (forget 0 (loop_inc s))) with (s_tape (loop_inc s)). change (s_state (forget 0 (loop_inc s))) with (s_state (loop_inc s)).
    change (s_loops (forget 0 (loop_inc s))) with (s_loops (loop_inc s)).
    destruct (log_and_apply M mc mr p (s_tape (loop_inc s)) (s_state (loop_inc s)) (s_loops (loop_inc s) - 1)) as [[p1 r]|] eqn:E; [|discriminate].
    destruct (lap_rel _ _ _ _ _ _ _ Hp E) as (p1' & E' & Hp1). rewrite E'. destruct r as [|tape n seen|states]; cbn [forget_result].
    - destruct (sim_move zops M (loop_inc s)) as [s'|] eqn:Em; [|discriminate]. rewrite (move_forget _ 0 _ _ Em). intros [= <-]. eexists. split; [reflexivity|]. split; auto.
    - intros [= <-]. eexists. split; [reflexivity|]. split; auto.
    - intros [= <-]. eexists. split; [reflexivity|]. split; auto.
  Qed.
  Lemma init_rel next next' : psrel (prover_init next, sim_init zops M) (nprover_init next', nsim_init zops M).
  Proof. split; [|reflexivity]. split; [constructor|reflexivity]. Qed.
  Lemma iter_rel n : forall a b a', psrel a b -> sim_iter zops M (log_and_apply M mc mr) n a = Some a' ->
    exists b', nsim_iter zops M (nlog_and_apply M mc mr) n b = Some b' /\ psrel a' b'.
  Proof.
    induction n as [|n IH]; intros a b a' R; cbn [sim_iter nsim_iter]; [intros [= <-]; eauto|].
    destruct (sim_step zops M (log_and_apply M mc mr) a) as [a1|] eqn:E; [|discriminate]. destruct (step_rel _ _ _ R E) as (b1 & E1 & R1). rewrite E1. eauto.
  Qed.
  Lemma psrel_loops a b : psrel a b -> s_loops (snd b) = s_loops (snd a) /\ s_op (snd b) = s_op (snd a) /\ s_tape (snd b) = s_tape (snd a).
  Proof. intros [_ H]. rewrite H. auto. Qed.
  Lemma loop_rel cutoff fuel : forall a b a', psrel a b -> loop_seek_loop zops M (log_and_apply M mc mr) fuel cutoff a = Some a' ->
    exists b', nloop_seek zops M (nlog_and_apply M mc mr) fuel cutoff b = Some b' /\ psrel a' b'.
  Proof.
    induction fuel as [|fuel IH]; intros a b a' R; cbn [loop_seek_loop nloop_seek]; destruct (psrel_loops _ _ R) as (E1 & E2 & _); rewrite E1, E2;
      destruct (_ && _); try discriminate; try (intros [= <-]; eauto; fail).
    destruct (sim_step zops M (log_and_apply M mc mr) a) as [a1|] eqn:E; [|discriminate]. destruct (step_rel _ _ _ R E) as (b1 & E3 & R1). rewrite E3. eauto.
  Qed.
  Lemma sloop_rel fuel max_loops tl : forall a b a', psrel a b -> sim_loop M (log_and_apply M mc mr) fuel max_loops tl a = Some a' ->
    exists b', nsim_loop M (nlog_and_apply M mc mr) fuel max_loops tl b = Some b' /\ psrel a' b'.
  Proof.
    induction fuel as [|fuel IH]; intros a b a' R; cbn [sim_loop nsim_loop]; destruct (psrel_loops _ _ R) as (E1 & E2 & E3); rewrite E1, E2, E3;
      destruct (_ && _ && _); try discriminate; try (intros [= <-]; eauto; fail).
    destruct (sim_step zops M (log_and_apply M mc mr) a) as [a1|] eqn:E; [|discriminate]. destruct (step_rel _ _ _ R E) as (b1 & E4 & R1). rewrite E4. eauto.
  Qed.
  (** a run whose step number stays 0 *)
  Lemma nstep_steps {P} (lap : P -> ctape Z Sym -> St -> nat -> option (P * prover_result Z Sym)) a a' :
    nsim_step zops M lap a = Some a' -> s_steps (snd a') = s_steps (snd a).
  Proof.
    destruct a as [p s]. unfold nsim_step. destruct (negb _); [intros [= <-]; reflexivity|]. cbv zeta.
    destruct (lap p _ _ _) as [[p1 [|tape n seen|states]]|]; [| | |discriminate]; try (intros [= <-]; reflexivity).
    destruct (nsim_move zops M (loop_inc s)) as [s'|] eqn:E; [|discriminate]. intros [= <-]. cbn [snd]. revert E. unfold nsim_move.
    destruct (ct_top _) as [b|]; [|discriminate]. destruct (m_trans M _ _ _) as [t|]; [|discriminate].
    destruct (cond_eqb (t_cond t) INF_REPEAT); [intros [= <-]; reflexivity|]. destruct (_ && _ && _).
    - destruct (apply_chain_move _ _ _ _) as [[tape [n|]]|]; [| |discriminate]; intros [= <-]; reflexivity.
    - destruct (negb _); [|intros [= <-]; reflexivity]. destruct (apply_single_move _ _ _ _ _); [|discriminate]. intros [= <-]; reflexivity.
  Qed.
  Lemma nseek_end {P} (lap : P -> ctape Z Sym -> St -> nat -> option (P * prover_result Z Sym)) cutoff fuel : forall a a',
    s_steps (snd a) < cutoff -> nseek M lap fuel cutoff a = Some a' -> s_op (snd a') <> RUNNING.
  Proof.
    induction fuel as [|fuel IH]; intros a a' H; cbn [nseek]; apply Z.ltb_lt in H; rewrite H; cbn [andb];
      destruct (cond_eqb (s_op (snd a)) RUNNING) eqn:E; try discriminate;
      try (intros [= <-]; intros E2; rewrite E2 in E; discriminate).
    destruct (nsim_step zops M lap a) as [a1|] eqn:E1; [|discriminate]. apply IH. rewrite (nstep_steps _ _ _ E1). now apply Z.ltb_lt.
  Qed.
End Machine.
