(** * The counter of variables: a run with the prover is the same from any value, steps and last visits included *)
Require Import ZArith List Lia Bool Arith QArith Qround.
From Verif Require Import Spec_TM M_Turing_Machine M_Expr M_Tape M_Simulator M_Settings M_Prover M_ProverRun M_ProverLim M_ProverRec
  M_NoSteps P_Rename P_NoSteps.
Import ListNotations.
Open Scope Z_scope.

(** ** a simulator whose prover has renamed variables *)
Section Drive.
  Context {Sym St P : Type} (M : machine Sym St)
    (lap : P -> ctape Z Sym -> St -> nat -> option (P * prover_result Z Sym)) (g : P -> P).
  Hypothesis H : forall p t q l, lap (g p) t q l = option_map (fun x => (g (fst x), snd x)) (lap p t q l).
  Definition onp (x : P * sim Z Sym St) : P * sim Z Sym St := (g (fst x), snd x).
  Lemma step_onp ps : sim_step zops M lap (onp ps) = option_map onp (sim_step zops M lap ps).
  Proof.
    destruct ps as [p s]. unfold onp at 1, sim_step. cbn [fst snd]. destruct (negb _); [reflexivity|]. cbv zeta. rewrite H.
    destruct (lap p _ _ _) as [[p' [|t n d|l]]|]; cbn [option_map fst snd]; try reflexivity.
    destruct (sim_move zops M (loop_inc s)); reflexivity.
  Qed.
  Lemma iter_onp n : forall ps, sim_iter zops M lap n (onp ps) = option_map onp (sim_iter zops M lap n ps).
  Proof.
    induction n as [|n IH]; intros ps; [reflexivity|]. cbn [sim_iter]. rewrite step_onp.
    destruct (sim_step zops M lap ps) as [ps'|]; [apply IH|reflexivity].
  Qed.
  Lemma loop_onp c n : forall ps, loop_seek_loop zops M lap n c (onp ps) = option_map onp (loop_seek_loop zops M lap n c ps).
  Proof.
    induction n as [|n IH]; intros ps; cbn [loop_seek_loop onp snd]; destruct (_ && _); try reflexivity.
    change (g (fst ps), snd ps) with (onp ps). rewrite step_onp. destruct (sim_step zops M lap ps) as [ps'|]; [apply IH|reflexivity].
  Qed.
  Lemma seek_onp c n : forall ps, seek_loop M lap n c (onp ps) = option_map onp (seek_loop M lap n c ps).
  Proof.
    induction n as [|n IH]; intros ps; cbn [seek_loop onp snd]; destruct (_ && _); try reflexivity.
    change (g (fst ps), snd ps) with (onp ps). rewrite step_onp. destruct (sim_step zops M lap ps) as [ps'|]; [apply IH|reflexivity].
  Qed.
  Lemma drive_onp d ps : drive M lap d (onp ps) = option_map onp (drive M lap d ps).
  Proof. destruct d as [n|n|z]; cbn [drive]; [apply iter_onp|apply loop_onp|apply seek_onp]. Qed.
End Drive.

Section Shift.
  Variable f : nat -> nat.
  Hypothesis mono : forall x y, (x < y)%nat -> (f x < f y)%nat.
  Hypothesis fS : forall x, f (S x) = S (f x).
  Notation rv := (rn_v f).
  Notation ro := (option_map (rn_v f)).

  Lemma e_eqb_rnv a b : e_eqb (rn_e f a) (rv b) = e_eqb a b.
  Proof.
    unfold e_eqb. change (VE (rn_e f a)) with (rv (VE a)). rewrite (v_sub_rn f mono).
    destruct (v_sub (VE a) b) as [q|d]; [reflexivity|]. cbn [rn_v rn_e e_const e_terms]. now rewrite forallb_map.
  Qed.
  Lemma v_eqb_rn a b : v_eqb (rv a) (rv b) = v_eqb a b.
  Proof.
    destruct a as [q|e]; [|exact (e_eqb_rnv e b)]. destruct b as [r|e]; [reflexivity|]. exact (e_eqb_rnv e (VS q)).
  Qed.
  Lemma v_simp_rn v : v_simp (rv v) = rv (v_simp v).
  Proof. destruct v as [q|e]; [reflexivity|]. cbn [rn_v v_simp]. rewrite e_is_const_rn. destruct (e_is_const e); reflexivity. Qed.

  (** ** series *)
  Lemma factor_rn t k : factor_var (rn_t f t) (f k) = (fst (factor_var t k), rv (snd (factor_var t k))).
  Proof.
    unfold factor_var. cbn [rn_t t_vars t_coef fst snd].
    assert (E1 : forall l p, fold_left (fun p vp => if Nat.eqb (fst vp) (f k) then snd vp else p) (map (rn_p f) l) p =
                             fold_left (fun p vp => if Nat.eqb (fst vp) k then snd vp else p) l p).
    { induction l as [|[x e] l IH]; intros p; [reflexivity|]. cbn [map fold_left rn_p fst snd]. now rewrite (f_eqb f mono), IH. }
    rewrite E1. f_equal.
    assert (E2 : forall l, filter (fun vp => negb (Nat.eqb (fst vp) (f k))) (map (rn_p f) l) =
                           map (rn_p f) (filter (fun vp => negb (Nat.eqb (fst vp) k)) l)).
    { induction l as [|[x e] l IH]; [reflexivity|]. cbn [map filter rn_p fst snd]. rewrite (f_eqb f mono). destruct (negb _); cbn [map]; now rewrite IH. }
    rewrite E2. match goal with |- context [filter ?g (t_vars t)] => destruct (filter g (t_vars t)) end; reflexivity.
  Qed.
  Lemma v_floordiv_rn v z : v_floordiv (rv v) z = ro (v_floordiv v z).
  Proof.
    destruct v as [q|e]; [reflexivity|]. cbn [rn_v v_floordiv]. unfold e_div. destruct (z =? 1); [reflexivity|]. destruct (z =? 0); [reflexivity|].
    cbn [option_map rn_v rn_e e_terms e_const]. unfold rn_e. cbn [e_terms e_const]. now rewrite !map_map.
  Qed.
  Lemma series_term_rn t k N : series_term (rn_t f t) (f k) (rv N) = ro (series_term t k N).
  Proof.
    unfold series_term. rewrite factor_rn. destruct (factor_var t k) as [p rest]. cbn [fst snd].
    change (VS 1%Q) with (rv (VS 1%Q)). change (VS 2%Q) with (rv (VS 2%Q)).
    destruct p as [|[|[|[|p]]]]; rewrite ?(v_mul_rn f mono), ?(v_sub_rn f mono), ?(v_mul_rn f mono), ?(v_sub_rn f mono), ?(v_mul_rn f mono), ?v_floordiv_rn; try reflexivity.
    destruct (v_floordiv _ 2) as [v|]; [|reflexivity]. cbn [option_map]. now rewrite (v_pow_rn f mono).
  Qed.
  Lemma series_sum_rn v k N : series_sum (rv v) (f k) (rv N) = ro (series_sum v k N).
  Proof.
    destruct v as [q|e]; cbn [rn_v series_sum].
    { destruct (q_int q); [|reflexivity]. cbn [option_map]. change (VS q) with (rv (VS q)) at 1. now rewrite (v_mul_rn f mono). }
    cbn [rn_e e_terms e_const].
    assert (E : forall l acc, series_terms (map (rn_t f) l) (f k) (rv N) (rv acc) = ro (series_terms l k N acc)).
    { induction l as [|t l IH]; intros acc; [reflexivity|]. cbn [map series_terms]. rewrite series_term_rn.
      destruct (series_term t k N) as [w|]; [|reflexivity]. cbn [option_map]. now rewrite (v_add_rn f mono), IH. }
    change (VS (e_const e)) with (rv (VS (e_const e))) at 1. now rewrite (v_mul_rn f mono), E.
  Qed.

  (** ** dicts of last visits *)
  Definition rn_seen (d : ndict val) : ndict val := map (fun kv => (fst kv, rv (snd kv))) d.
  Lemma seen_map_rn (g g' : val -> option val) d : (forall v, g' (rv v) = ro (g v)) ->
    seen_map_opt g' (rn_seen d) = option_map rn_seen (seen_map_opt g d).
  Proof.
    intros E. unfold seen_map_opt. induction d as [|[k v] d IH]; [reflexivity|]. cbn [rn_seen map map_opt fst snd]. rewrite E.
    fold (rn_seen d). rewrite IH. destruct (g v) as [w|]; [|reflexivity]. cbn [option_map].
    destruct (map_opt _ d); reflexivity.
  Qed.
  Lemma seen_map_z (g g' : val -> option Z) d : (forall v, g' (rv v) = g v) -> seen_map_opt g' (rn_seen d) = seen_map_opt g d.
  Proof.
    intros E. unfold seen_map_opt. induction d as [|[k v] d IH]; [reflexivity|]. cbn [rn_seen map map_opt fst snd]. rewrite E.
    fold (rn_seen d). now rewrite IH.
  Qed.
  Lemma recur_rn seen : recur_states (rn_seen seen) = recur_states seen.
  Proof.
    unfold recur_states. destruct seen as [|kv seen]; [reflexivity|]. cbn [rn_seen map]. f_equal. cbn [fst]. f_equal.
    rewrite map_map. now apply map_ext.
  Qed.
  Lemma nd_set_seen k v d : nd_set k (rv v) (rn_seen d) = rn_seen (nd_set k v d).
  Proof. induction d as [|[y w] d IH]; [reflexivity|]. cbn [rn_seen map nd_set fst snd]. destruct (Nat.eqb k y); [reflexivity|]. cbn [map]. f_equal. exact IH. Qed.

  Section Machine.
    Context {Sym St : Type} (M : machine Sym St).
    Definition rn_full (s : sim val Sym St) : sim val Sym St :=
      Sim (rn_tape f (s_tape s)) (s_state s) (s_dir s) (rv (s_steps s)) (s_loops s) (s_op s) (s_details s)
          (option_map rn_seen (s_seen s)) (s_inf s) (s_rules s).
    Lemma seen_update_rn seen base new :
      seen_update vops (option_map rn_seen seen) (rv base) new = option_map rn_seen (seen_update vops seen base new).
    Proof.
      destruct seen as [d|]; [|reflexivity]. cbn [option_map seen_update]. f_equal. revert d. induction new as [|kv new IH]; intros d; [reflexivity|].
      cbn [fold_left]. rewrite <- IH. f_equal. rewrite <- nd_set_seen. f_equal. cbn [vops n_add n_of].
      change (VS (inject_Z (Z.of_nat (snd kv)))) with (rv (VS (inject_Z (Z.of_nat (snd kv))))) at 1. now rewrite (v_add_rn f mono).
    Qed.
    Lemma seen_merge_rn seen new base :
      seen_merge vops (option_map rn_seen seen) (option_map rn_seen new) (rv base) = option_map rn_seen (seen_merge vops seen new base).
    Proof.
      destruct seen as [d|]; [|reflexivity]. destruct new as [[|kv new]|]; [reflexivity| |reflexivity]. cbn [option_map rn_seen map seen_merge].
      f_equal. change ((fst kv, rv (snd kv)) :: map (fun kv => (fst kv, rv (snd kv))) new) with (rn_seen (kv :: new)).
      revert d. induction (kv :: new) as [|x l IH]; intros d; [reflexivity|]. cbn [rn_seen map fold_left fst snd]. fold (rn_seen l).
      rewrite <- IH. f_equal. fold (rn_seen d). rewrite <- nd_set_seen. f_equal. cbn [vops n_add]. now rewrite (v_add_rn f mono).
    Qed.
    Lemma move_rn s : sim_move vops M (rn_full s) = option_map rn_full (sim_move vops M s).
    Proof.
      unfold sim_move. cbn [rn_full s_tape s_state s_dir s_steps s_loops s_seen s_inf s_rules s_op s_details].
      rewrite (ct_top_rn f). destruct (ct_top (s_tape s)) as [b|]; [|reflexivity]. cbn [option_map rn_b k_sym].
      destruct (m_trans M (k_sym b) (s_state s) (s_dir s)) as [t|]; [|reflexivity].
      destruct (cond_eqb (t_cond t) INF_REPEAT); [reflexivity|].
      destruct (m_st_eqb M (t_state t) (s_state s) && dir_eqb (t_dir t) (s_dir s) && cond_eqb (t_cond t) RUNNING).
      - rewrite (chain_rn f mono). destruct (apply_chain_move vops (m_sym_eqb M) (s_tape s) (t_sym t)) as [[tape [n|]]|]; [|reflexivity|reflexivity].
        cbn [option_map fst snd]. cbv zeta. unfold rn_full. cbn [s_tape s_state s_dir s_steps s_loops s_seen s_inf s_rules s_op s_details].
        rewrite <- seen_update_rn. cbn [vops n_add n_mul n_of].
        change (VS (inject_Z (Z.of_nat (t_steps t)))) with (rv (VS (inject_Z (Z.of_nat (t_steps t))))).
        change (VS (inject_Z (-1))) with (rv (VS (inject_Z (-1)))).
        rewrite !(v_add_rn f mono), !(v_mul_rn f mono), !(v_add_rn f mono). reflexivity.
      - destruct (negb (cond_eqb (t_cond t) GAVE_UP)); [|reflexivity].
        rewrite (single_rn f mono). destruct (apply_single_move vops (m_sym_eqb M) (s_tape s) (t_sym t) (t_dir t)); [|reflexivity].
        cbn [option_map]. unfold rn_full. cbn [s_tape s_state s_dir s_steps s_loops s_seen s_inf s_rules s_op s_details].
        rewrite <- seen_update_rn. cbn [vops n_add n_mul n_of].
        change (VS (inject_Z (Z.of_nat (t_steps t)))) with (rv (VS (inject_Z (Z.of_nat (t_steps t))))) at 1.
        rewrite (v_add_rn f mono). reflexivity.
    Qed.

    (** ** rules *)
    Definition rn_frule (r : rule) : rule :=
      match r with
      | RDiff i d n seen => RDiff (map ro i) (map ro d) (rv n) (rn_seen seen)
      | RGen vars mins result inf n seen => RGen (map (option_map f) vars) mins (map ro result) inf (rv n) (rn_seen seen)
      end.
    Lemma seen_subst_rn s d : seen_map_opt (fun v => v_subst v (rn_s f s)) (rn_seen d) = option_map rn_seen (seen_map_opt (fun v => v_subst v s) d).
    Proof. apply seen_map_rn. intros v. apply (v_subst_rn f mono). Qed.
    Lemma make_diff_rn i d m s seen :
      make_diff (map ro i) (map ro d) (rn_d f m) (rn_full s) (rn_seen seen) = option_map rn_frule (make_diff i d m s seen).
    Proof.
      unfold make_diff. rewrite map_opt_map, (map_opt_rn (tighten m) _ (fun vs => (ro (fst vs), rn_s f (snd vs))) i (tighten_rn f mono m)).
      destruct (map_opt (tighten m) i) as [l|]; [|reflexivity]. cbn [option_map]. cbv zeta. rewrite !map_map. cbn [fst snd].
      rewrite <- (map_map snd (rn_s f)), (concat_rn f), (subst_list_rn f mono). cbn [rn_full s_steps]. rewrite (v_subst_rn f mono), seen_subst_rn.
      destruct (map_opt _ d) as [d'|]; [|reflexivity]. destruct (v_subst (s_steps s) _) as [n|]; [|reflexivity].
      destruct (seen_map_opt _ seen) as [sn|]; [|reflexivity]. cbn [option_map rn_frule]. rewrite map_map. destruct n; reflexivity.
    Qed.
    Lemma forallb_pair (p : option nat * option val -> bool) : (forall x r, p (option_map f x, ro r) = p (x, r)) ->
      forall l, forallb (fun a => p (option_map f (fst a), ro (snd a))) l = forallb p l.
    Proof. intros Hp l0. induction l0 as [|[x r] l0 IH]; [reflexivity|]. cbn [forallb fst snd]. now rewrite Hp, IH. Qed.
    Lemma forallb_valid vs l : forallb (fun a => vars_valid (map (option_map f) vs) (ro a)) l = forallb (vars_valid vs) l.
    Proof. induction l as [|x l IH]; [reflexivity|]. cbn [forallb]. now rewrite (vars_valid_rn f mono), IH. Qed.
    Lemma make_gen_rn i d m s seen :
      make_gen (map ro i) (map ro d) (rn_d f m) (rn_full s) (rn_seen seen) = option_map rn_frule (make_gen i d m s seen).
    Proof.
      unfold make_gen. rewrite map_opt_map, (map_opt_rn (gen_entry m) _ (fun e => (option_map f (fst (fst e)), snd (fst e), rn_s f (snd e))) i (gen_entry_rn f mono m)).
      destruct (map_opt (gen_entry m) i) as [l|]; [|reflexivity]. cbn [option_map]. cbv zeta. rewrite !map_map. cbn [fst snd].
      rewrite <- (map_map snd (rn_s f)), (concat_rn f), (subst_list_rn f mono), <- (map_map (fun e => fst (fst e)) (option_map f)). cbn [rn_full s_steps].
      rewrite (v_subst_rn f mono), seen_subst_rn.
      destruct (map_opt _ d) as [d'|]; [|reflexivity]. destruct (v_subst (s_steps s) _) as [n|]; [|reflexivity].
      destruct (seen_map_opt _ seen) as [sn|]; [|reflexivity]. cbn [option_map]. rewrite combine_map2, !forallb_map.
      rewrite (forallb_pair _ (linear_shape_rn f mono)), (forallb_pair _ (gen_infinite_rn f mono)), forallb_valid.
      destruct (forallb linear_shape _); [reflexivity|]. destruct (forallb (vars_valid _) d'); reflexivity.
    Qed.
    Lemma lin_min_rn x m r : lin_min (option_map f x, m, ro r) = lin_min (x, m, r).
    Proof.
      destruct x as [x|]; [|reflexivity]. destruct m as [m|]; [|reflexivity]. destruct r as [[q|e]|]; try reflexivity.
      cbn [option_map rn_v lin_min]. rewrite (as_strictly_linear_rn f). destruct (as_strictly_linear e) as [[[y a] b]|]; reflexivity.
    Qed.
    Lemma lin_mins_rn vars : forall mins result,
      map_opt lin_min (combine (combine (map (option_map f) vars) mins) (map ro result)) = map_opt lin_min (combine (combine vars mins) result).
    Proof.
      induction vars as [|x vars IH]; intros [|m mins] [|r result]; try reflexivity. cbn [map combine map_opt]. now rewrite lin_min_rn, IH.
    Qed.
    Lemma make_gen_v_rn i d m s seen :
      make_gen_v (map ro i) (map ro d) (rn_d f m) (rn_full s) (rn_seen seen) = option_map rn_frule (make_gen_v i d m s seen).
    Proof.
      unfold make_gen_v. rewrite map_opt_map, (map_opt_rn (gen_entry m) _ (fun e => (option_map f (fst (fst e)), snd (fst e), rn_s f (snd e))) i (gen_entry_rn f mono m)).
      destruct (map_opt (gen_entry m) i) as [l|]; [|reflexivity]. cbn [option_map]. cbv zeta. rewrite !map_map. cbn [fst snd].
      rewrite <- (map_map snd (rn_s f)), (concat_rn f), (subst_list_rn f mono), <- (map_map (fun e => fst (fst e)) (option_map f)). cbn [rn_full s_steps].
      rewrite (v_subst_rn f mono), seen_subst_rn.
      destruct (map_opt _ d) as [d'|]; [|reflexivity]. destruct (v_subst (s_steps s) _) as [n|]; [|reflexivity].
      destruct (seen_map_opt _ seen) as [sn|]; [|reflexivity]. cbn [option_map]. rewrite lin_mins_rn, combine_map2, !forallb_map.
      rewrite (forallb_pair _ (linear_shape_rn f mono)), (forallb_pair _ (gen_infinite_rn f mono)), forallb_valid.
      destruct (if forallb linear_shape _ then _ else _) as [mins|]; [|reflexivity]. destruct (forallb (vars_valid _) d'); reflexivity.
    Qed.
    Lemma gen_nums_rn ns : forall next, gen_nums (f next) ns =
      option_map (fun x => let '(nx, vs, m) := x in (f nx, map ro vs, rn_d f m)) (gen_nums next ns).
    Proof.
      induction ns as [|[z|] ns IH]; intros next; [reflexivity| |].
      - cbn [gen_nums]. destruct (z =? 1).
        { rewrite IH. destruct (gen_nums next ns) as [[[nx vs] m]|]; reflexivity. }
        destruct (z =? 0); [reflexivity|]. rewrite <- fS, IH.
        destruct (gen_nums (S next) ns) as [[[nx vs] m]|]; reflexivity.
      - cbn [gen_nums]. rewrite IH. destruct (gen_nums next ns) as [[[nx vs] m]|]; reflexivity.
    Qed.
    Lemma gen_sim0_rn (t : ctape Z Sym) (q : St) i : gen_sim0 t q (map ro i) = rn_full (gen_sim0 t q i).
    Proof. unfold gen_sim0, rn_full. cbn [s_tape s_state s_dir s_steps s_loops s_op s_details s_seen s_inf s_rules]. now rewrite (mk_rn f). Qed.
    Lemma scalars_rn l : forallb num_scalar (map ro l) = forallb num_scalar l.
    Proof. rewrite forallb_map. induction l as [|x l IH]; [reflexivity|]. cbn [forallb]. now rewrite (num_scalar_rn f), IH. Qed.

    (** ** the plain prover *)
    Context (mc mr : nat).
    Lemma gen_loop_rn d : forall s m, gen_loop M d (rn_full s) (rn_d f m) =
      match gen_loop M d s m with POk (s, m) => POk (rn_full s, rn_d f m) | PFail => PFail | PExn => PExn end.
    Proof.
      induction d as [|d IH]; intros s m; [reflexivity|]. cbn [gen_loop]. change (s_tape (rn_full s)) with (rn_tape f (s_tape s)). rewrite (ct_top_rn f).
      destruct (ct_top (s_tape s)) as [b|]; [|reflexivity]. cbn [option_map]. change (k_num (rn_b f b)) with (ro (k_num b)). rewrite (num_le0_rn f).
      destruct (num_le0 (k_num b)); [reflexivity|]. change (loop_inc (rn_full s)) with (rn_full (loop_inc s)). rewrite move_rn.
      destruct (sim_move vops M (loop_inc s)) as [s1|]; [|reflexivity]. cbn [option_map]. change (s_op (rn_full s1)) with (s_op s1).
      destruct (negb _); [reflexivity|]. change (s_tape (rn_full s1)) with (rn_tape f (s_tape s1)). rewrite (nums_rn f), (update_min_rn f mono).
      destruct (update_min (nums (s_tape s1)) m) as [| |m1]; try reflexivity. cbn [rn_pr]. apply IH.
    Qed.
    Definition rn_proved {R} (g : R -> R) (x : nat * option R) : nat * option R := (f (fst x), option_map g (snd x)).
    Lemma prove_rule_rn next t q d : prove_rule M (f next) t q d = option_map (rn_proved rn_frule) (prove_rule M next t q d).
    Proof.
      unfold prove_rule. rewrite gen_nums_rn. destruct (gen_nums next (nums t)) as [[[nx i] m]|]; [|reflexivity]. cbn [option_map].
      rewrite gen_sim0_rn, gen_loop_rn. destruct (gen_loop M d (gen_sim0 t q i) m) as [| |[s m']]; [reflexivity|reflexivity|].
      change (s_state (rn_full s)) with (s_state s). change (s_tape (rn_full s)) with (rn_tape f (s_tape s)).
      rewrite (strip_rn f mono), (nums_rn f). destruct (negb _); [reflexivity|]. cbv zeta.
      rewrite (diffs_rn f mono), scalars_rn. change (s_seen (rn_full s)) with (option_map rn_seen (s_seen s)).
      destruct (s_seen s) as [seen|]; [|reflexivity]. cbn [option_map]. rewrite make_diff_rn, make_gen_rn.
      destruct (forallb num_scalar _).
      - destruct (make_diff _ _ _ _ _); reflexivity.
      - destruct (make_gen _ _ _ _ _); reflexivity.
    Qed.
    Lemma subs_get_map (g : nat * (Z * Z) -> val) l : map (fun xv => (fst xv, g xv)) (map (fun xv => (f (fst xv), snd xv)) l) =
      map (fun xv => (f (fst xv), g (f (fst xv), snd xv))) l.
    Proof. rewrite map_map. reflexivity. Qed.
    Definition rn_vals {A} (l : list (nat * A)) : list (nat * A) := map (fun xv => (f (fst xv), snd xv)) l.
    Lemma diff_scan_rn inits : forall diffs ns i lim vals,
      diff_scan i (combine (combine (map ro inits) (map ro diffs)) ns) lim (rn_vals vals) =
      match diff_scan i (combine (combine inits diffs) ns) lim vals with POk (l, v) => POk (l, rn_vals v) | PFail => PFail | PExn => PExn end.
    Proof.
      induction inits as [|v inits IH]; intros [|d diffs] [|n ns] i lim vals; try reflexivity.
      cbn [map combine]. destruct v as [[q|e]|]; try (cbn [option_map rn_v diff_scan]; apply IH).
      cbn [option_map rn_v diff_scan]. rewrite (variable_restricted_rn f). change (e_const (rn_e f e)) with (e_const e).
      destruct (variable_restricted e) as [x|]; [|reflexivity]. cbn [option_map].
      destruct (q_int (e_const e)) as [c|]; [|reflexivity]. destruct n as [n|]; [|reflexivity].
      destruct (n - c <? 0); [reflexivity|]. destruct d as [d|]; [|reflexivity]. cbn [option_map]. rewrite (v_int_rn f).
      destruct (v_int d) as [dz|]; [|reflexivity]. rewrite <- IH. unfold rn_vals. rewrite map_app. reflexivity.
    Qed.
    Definition rn_applied {A} (x : nat * A) : nat * A := (f (fst x), snd x).
    Lemma gen_reps_rn fuel vars mins result steps : forall cur acc last,
      gen_reps fuel (map (option_map f) vars) mins (map ro result) (rv steps) cur acc (option_map (rn_s f) last) =
      option_map (fun g => match g with GInf => GInf | GDone c a l => GDone c a (option_map (rn_s f) l) end)
                 (gen_reps fuel vars mins result steps cur acc last).
    Proof.
      induction fuel as [|fuel IH]; intros cur acc last; cbn [gen_reps]; change (@nil (nat * val)) with (rn_s f []) at 1; rewrite fits_min_rn;
        destruct (fits_min (combine (combine vars mins) cur) []) as [[asg|]|]; try reflexivity.
      cbn [option_map]. rewrite (v_subst_rn f mono).
      assert (E : map_opt (inf_opt (fun v => match v_subst v (rn_s f asg) with Some w => v_int w | None => None end)) (map ro result) =
                  map_opt (inf_opt (fun v => match v_subst v asg with Some w => v_int w | None => None end)) result).
      { rewrite map_opt_map. clear IH. induction result as [|r l IHr]; [reflexivity|]. cbn [map_opt]. rewrite IHr.
        destruct r as [v|]; [|reflexivity]. cbn [option_map inf_opt]. rewrite (v_subst_rn f mono). destruct (v_subst v asg) as [w|]; [|reflexivity].
        cbn [option_map]. now rewrite (v_int_rn f). }
      rewrite E. destruct (v_subst steps asg) as [n|]; [|reflexivity]. cbn [option_map].
      destruct (map_opt _ result) as [nx|]; [|reflexivity]. rewrite (v_int_rn f). destruct (v_int n) as [z|]; [|reflexivity].
      destruct (znums_eqb nx cur); [reflexivity|]. exact (IH nx _ (Some asg)).
    Qed.
    Lemma last_seen_rn total total' steps last ls :
      total' = rv total ->
      match v_subst (v_sub total' (v_sub (rv steps) (rv ls))) (rn_s f last) with Some v => v_int v | None => None end =
      match v_subst (v_sub total (v_sub steps ls)) last with Some v => v_int v | None => None end.
    Proof.
      intros ->. rewrite !(v_sub_rn f mono), (v_subst_rn f mono). destruct (v_subst _ last) as [v|]; [|reflexivity]. cbn [option_map]. apply v_int_rn.
    Qed.
    Lemma apply_rule_rn next r (t : ctape Z Sym) : apply_rule mr (f next) (rn_frule r) t = option_map rn_applied (apply_rule mr next r t).
    Proof.
      destruct r as [i d n seen|vars mins result inf n seen]; cbn [rn_frule apply_rule].
      - unfold apply_diff_rule. change (@nil (nat * (Z * Z))) with (rn_vals (@nil (nat * (Z * Z)))) at 1. rewrite diff_scan_rn.
        destruct (diff_scan 0 _ None []) as [| |[[[[reps li] final]|] vals]]; [reflexivity|reflexivity| |cbn [option_map]; now rewrite recur_rn].
        destruct (reps <=? 0); [reflexivity|]. cbv zeta.
        match goal with |- match v_subst (rv n) ?l with _ => _ end = option_map _ match v_subst n ?l' with _ => _ end => 
          assert (E1 : l = rn_s f l') end.
        { unfold rn_vals, rn_s. rewrite !map_map. apply map_ext. intros [x [a b]]. cbn [fst snd]. f_equal.
          change (VE (var_expr (f next))) with (rv (VE (var_expr next))). change (VS (inject_Z a)) with (rv (VS (inject_Z a))) at 1.
          change (VS (inject_Z b)) with (rv (VS (inject_Z b))) at 1. now rewrite (v_mul_rn f mono), (v_add_rn f mono). }
        rewrite E1, (v_subst_rn f mono). destruct (v_subst n _) as [this|]; [|reflexivity]. cbn [option_map].
        change (VS (inject_Z reps)) with (rv (VS (inject_Z reps))) at 1. rewrite series_sum_rn. destruct (series_sum this next _) as [total|]; [|reflexivity].
        cbn [option_map]. rewrite (v_int_rn f), diff_nums_rn. destruct (v_int total) as [tot|]; [|reflexivity].
        match goal with |- match seen_map_opt _ _ with _ => _ end = option_map _ match seen_map_opt (fun ls => match v_subst _ ?l with _ => _ end) _ with _ => _ end =>
          rewrite (seen_map_z (fun ls => match v_subst (v_sub total (v_sub n ls)) l with Some v => v_int v | None => None end)) end.
        { destruct (seen_map_opt _ seen) as [sn|]; [|reflexivity]. destruct (diff_nums 0 reps li final _); [|reflexivity].
          cbn [option_map]. unfold rn_applied. cbn [fst snd]. now rewrite fS. }
        intros ls. match goal with |- match v_subst _ ?l with _ => _ end = match v_subst _ ?l' with _ => _ end => assert (E2 : l = rn_s f l') end.
        { unfold rn_vals, rn_s. rewrite !map_map. reflexivity. }
        rewrite E2. now apply last_seen_rn.
      - unfold apply_general_rule. destruct mr as [|k]; [reflexivity|]. change (@nil (nat * val)) with (rn_s f []) at 1. rewrite fits_min_rn.
        destruct (fits_min (combine (combine vars mins) (nums t)) []) as [o|]; [|reflexivity]. cbn [option_map].
        assert (E0 : match option_map (rn_s f) o with Some _ => true | None => false end = match o with Some _ => true | None => false end) by (destruct o; reflexivity).
        rewrite E0, recur_rn. destruct (inf && _); [reflexivity|].
        change (@None subs) with (option_map (rn_s f) None) at 1. rewrite gen_reps_rn.
        destruct (gen_reps (S k) vars mins result n (nums t) 0 None) as [[|cur acc [last|]]|]; try reflexivity. cbn [option_map].
        destruct seen as [|kv seen]; [reflexivity|]. cbn [rn_seen map]. cbv zeta.
        change ((fst kv, rv (snd kv)) :: map (fun kv => (fst kv, rv (snd kv))) seen) with (rn_seen (kv :: seen)).
        rewrite (seen_map_z (fun ls => match v_subst (v_sub (VS (inject_Z acc)) (v_sub n ls)) last with Some v => v_int v | None => None end)).
        { destruct (seen_map_opt _ (kv :: seen)); reflexivity. }
        intros ls. now apply last_seen_rn.
    Qed.
    Definition rn_rules {R} (g : R -> R) (l : list (key (Sym:=Sym) (St:=St) * R)) := map (fun kr => (fst kr, g (snd kr))) l.
    Lemma kget_rn {R} (g : R -> R) k l : kget M k (rn_rules g l) = option_map g (kget M k l).
    Proof. induction l as [|[k1 r] l IH]; [reflexivity|]. cbn [rn_rules map kget fst snd]. destruct (key_eqb M k k1); [reflexivity|exact IH]. Qed.
    Lemma kset_rn {R} (g : R -> R) k r l : kset M k (g r) (rn_rules g l) = rn_rules g (kset M k r l).
    Proof. induction l as [|[k1 r1] l IH]; [reflexivity|]. cbn [rn_rules map kset fst snd]. destruct (key_eqb M k k1); [reflexivity|]. cbn [map fst snd]. f_equal. exact IH. Qed.
    Definition rn_prover (p : prover (Sym:=Sym) (St:=St)) : prover := Prover (rn_rules rn_frule (p_rules p)) (p_past p) (f (p_next p)).
    Lemma lap_rn p t q l : log_and_apply M mc mr (rn_prover p) t q l = option_map (fun x => (rn_prover (fst x), snd x)) (log_and_apply M mc mr p t q l).
    Proof.
      unfold log_and_apply. cbn [rn_prover p_rules p_past p_next]. rewrite kget_rn. destruct (kget M _ (p_rules p)) as [r|]; cbn [option_map].
      - rewrite apply_rule_rn. destruct (apply_rule mr (p_next p) r t) as [[nx [o|]]|]; reflexivity.
      - destruct (log_config _ l) as [[|] pc']; cbv zeta; cbn [p_rules p_past p_next].
        2: { destruct (Nat.ltb mc _); reflexivity. }
        rewrite prove_rule_rn. destruct (prove_rule M (p_next p) t q _) as [[nx [r|]]|]; try reflexivity.
        cbn [option_map rn_proved fst snd]. rewrite apply_rule_rn. destruct (apply_rule mr nx r t) as [[nx' o]|]; [|reflexivity].
        cbn [option_map rn_applied fst snd]. unfold rn_prover, add_rule. cbn [p_rules p_past p_next]. now rewrite kset_rn.
    Qed.

    (** ** the recursive prover *)
    Definition rn_res (r : prover_result val Sym) : prover_result val Sym :=
      match r with
      | PNothing => PNothing
      | PApply t n seen => PApply (rn_tape f t) (rv n) (option_map rn_seen seen)
      | PInf states => PInf states
      end.
    Lemma vstep_rn {P} (lap' lap : P -> ctape val Sym -> St -> nat -> option (P * prover_result val Sym)) (g : P -> P) :
      (forall p t q l, lap' (g p) (rn_tape f t) q l = option_map (fun x => (g (fst x), rn_res (snd x))) (lap p t q l)) ->
      forall p s, sim_step vops M lap' (g p, rn_full s) = option_map (fun x => (g (fst x), rn_full (snd x))) (sim_step vops M lap (p, s)).
    Proof.
      intros H p s. unfold sim_step. change (s_op (rn_full s)) with (s_op s). destruct (negb _); [reflexivity|]. cbv zeta.
      change (loop_inc (rn_full s)) with (rn_full (loop_inc s)). change (s_tape (rn_full (loop_inc s))) with (rn_tape f (s_tape (loop_inc s))).
      change (s_state (rn_full (loop_inc s))) with (s_state (loop_inc s)). change (s_loops (rn_full (loop_inc s))) with (s_loops (loop_inc s)).
      rewrite H. destruct (lap p _ _ _) as [[p' [|t n sn|states]]|]; cbn [option_map fst snd rn_res]; try reflexivity.
      - rewrite move_rn. destruct (sim_move vops M (loop_inc s)); reflexivity.
      - unfold rn_full. cbn [s_tape s_state s_dir s_steps s_loops s_op s_details s_seen s_inf s_rules loop_inc].
        rewrite <- seen_merge_rn. cbn [vops n_add]. now rewrite (v_add_rn f mono).
    Qed.
    Lemma max_reps_rn q dec v : max_reps_v q dec (rv v) = option_map (fun x => (rv (fst x), rv (snd x))) (max_reps_v q dec v).
    Proof.
      unfold max_reps_v. change (VS (q - inject_Z dec)%Q) with (rv (VS (q - inject_Z dec)%Q)) at 1. rewrite (v_sub_rn f mono).
      destruct (v_sub v _) as [p|e]; cbn [rn_v].
      - destruct (q_int p); [|reflexivity]. destruct (q_int (q - inject_Z dec)%Q); reflexivity.
      - destruct (dec =? 1); reflexivity.
    Qed.
    Definition rn_lim (l : vlimit) : vlimit := option_map (fun x => (rv (fst (fst x)), snd (fst x), rv (snd x))) l.
    Definition rn_pr {A} (g : A -> A) (x : pr A) : pr A := match x with POk a => POk (g a) | PFail => PFail | PExn => PExn end.
    Lemma scan_limit_rn i c dz n iv lim : scan_limit i c dz (rv n) (rv iv) (rn_lim lim) = rn_pr rn_lim (scan_limit i c dz n iv lim).
    Proof.
      unfold scan_limit. destruct lim as [[[best j] fin]|]; cbn [rn_lim option_map fst snd].
      - destruct iv as [a|e]; [|reflexivity]. destruct best as [b|e]; [|reflexivity]. cbn [rn_v]. rewrite max_reps_rn.
        destruct (max_reps_v c (- dz) n) as [[[r|e] fl]|]; try reflexivity. cbn [option_map fst snd rn_v]. destruct (qlt r b); reflexivity.
      - assert (E : v_is_expr (rv iv) = v_is_expr iv) by (destruct iv; reflexivity). rewrite E. destruct (_ && _); [reflexivity|].
        rewrite max_reps_rn. destruct (max_reps_v c (- dz) n) as [[r fl]|]; reflexivity.
    Qed.
    Definition rn_vvals (l : list (nat * (val * Z))) : list (nat * (val * Z)) := map (fun xv => (f (fst xv), (rv (fst (snd xv)), snd (snd xv)))) l.
    Lemma diff_scan_v_rn inits : forall diffs ns i lim vals large,
      diff_scan_v i (combine (combine (map ro inits) (map ro diffs)) (map ro ns)) (rn_lim lim) (rn_vvals vals) large =
      rn_pr (fun x => (rn_lim (fst (fst x)), rn_vvals (snd (fst x)), snd x)) (diff_scan_v i (combine (combine inits diffs) ns) lim vals large).
    Proof.
      induction inits as [|v inits IH]; intros [|d diffs] [|n ns] i lim vals large; try reflexivity.
      cbn [map combine]. destruct v as [[q|e]|]; try (cbn [option_map rn_v diff_scan_v]; apply IH).
      cbn [option_map rn_v diff_scan_v]. rewrite (variable_restricted_rn f). change (e_const (rn_e f e)) with (e_const e).
      destruct (variable_restricted e) as [x|]; [|reflexivity]. cbn [option_map]. destruct n as [n|]; [|reflexivity]. cbn [option_map]. cbv zeta.
      change (VS (e_const e)) with (rv (VS (e_const e))) at 1. change (VS 0%Q) with (rv (VS 0%Q)) at 1. rewrite (v_sub_rn f mono), (always_ge_rn f mono).
      destruct (negb _); [reflexivity|]. destruct d as [d|]; [|reflexivity]. cbn [option_map]. rewrite (v_int_rn f).
      destruct (v_int d) as [dz|]; [|reflexivity].
      assert (EV : rn_vvals vals ++ [(f x, (v_sub (rv n) (VS (e_const e)), dz))] = rn_vvals (vals ++ [(x, (v_sub n (VS (e_const e)), dz))])).
      { unfold rn_vvals. rewrite map_app. cbn [map fst snd]. change (VS (e_const e)) with (rv (VS (e_const e))) at 1. now rewrite (v_sub_rn f mono). }
      rewrite EV. destruct (dz <? 0); [|apply IH].
      change (VS (e_const e)) with (rv (VS (e_const e))) at 1. rewrite (v_sub_rn f mono), scan_limit_rn.
      destruct (scan_limit i (e_const e) dz n (v_sub n (VS (e_const e))) lim) as [| |lim']; try reflexivity. cbn [rn_pr]. apply IH.
    Qed.
    Lemma diff_nums_v_rn reps li final diffs : forall ns i,
      diff_nums_v i (rv reps) li (rv final) (combine (map ro diffs) (map ro ns)) = option_map (map ro) (diff_nums_v i reps li final (combine diffs ns)).
    Proof.
      induction diffs as [|d diffs IH]; intros [|n ns] i; try reflexivity. cbn [map combine diff_nums_v]. rewrite IH.
      destruct (diff_nums_v (S i) reps li final (combine diffs ns)) as [l|]; [|reflexivity]. cbn [option_map]. destruct n as [n|]; [|reflexivity]. cbn [option_map].
      destruct (Nat.eqb i li); [cbn [option_map map]; now rewrite v_simp_rn|]. destruct d as [d|]; [|reflexivity]. cbn [option_map map].
      now rewrite (v_mul_rn f mono), (v_add_rn f mono), v_simp_rn.
    Qed.
    Lemma fits_min_v_rn vars : forall mins cur asg,
      fits_min_v (combine (combine (map (option_map f) vars) mins) (map ro cur)) (rn_s f asg) =
      option_map (option_map (rn_s f)) (fits_min_v (combine (combine vars mins) cur) asg).
    Proof.
      induction vars as [|x vars IH]; intros [|m mins] [|z cur] asg; try reflexivity.
      cbn [map combine]. destruct x as [x|]; cbn [option_map fits_min_v].
      - destruct m as [m|]; [|reflexivity]. destruct z as [z|]; [|reflexivity]. cbn [option_map].
        change (VS m) with (rv (VS m)) at 1. rewrite (always_ge_rn f mono). destruct (always_ge z (VS m)); [|reflexivity].
        rewrite <- IH. unfold rn_s. rewrite map_app. reflexivity.
      - apply IH.
    Qed.
    Lemma vnums_eqb_rn a : forall b, vnums_eqb (map ro a) (map ro b) = vnums_eqb a b.
    Proof. induction a as [|[x|] a IH]; intros [|[y|] b]; try reflexivity; cbn [map option_map vnums_eqb]; rewrite ?v_eqb_rn, IH; reflexivity. Qed.
    Lemma gen_reps_v_rn fuel vars mins result steps : forall cur acc last,
      gen_reps_v fuel (map (option_map f) vars) mins (map ro result) (rv steps) (map ro cur) (rv acc) (option_map (rn_s f) last) =
      option_map (fun g => match g with VGInf => VGInf | VGDone c a l => VGDone (map ro c) (rv a) (option_map (rn_s f) l) end)
                 (gen_reps_v fuel vars mins result steps cur acc last).
    Proof.
      induction fuel as [|fuel IH]; intros cur acc last; cbn [gen_reps_v]; change (@nil (nat * val)) with (rn_s f []) at 1; rewrite fits_min_v_rn;
        destruct (fits_min_v (combine (combine vars mins) cur) []) as [[asg|]|]; try reflexivity.
      cbn [option_map]. rewrite (v_subst_rn f mono), (subst_list_rn f mono).
      destruct (v_subst steps asg) as [n|]; [|reflexivity]. cbn [option_map].
      destruct (map_opt _ result) as [nx|]; [|reflexivity]. cbn [option_map]. rewrite vnums_eqb_rn.
      destruct (vnums_eqb nx cur); [reflexivity|]. rewrite (v_add_rn f mono). exact (IH nx _ (Some asg)).
    Qed.
    Lemma filter_rn h : filter (fun b => match k_num b with Some v => negb (n_eq0 vops v) | None => true end) (map (rn_b f) h) =
      map (rn_b f) (filter (fun b : blk val Sym => match k_num b with Some v => negb (n_eq0 vops v) | None => true end) h).
    Proof.
      induction h as [|[y [v|]] h IH]; [reflexivity| |]; cbn [map filter rn_b k_num k_sym option_map].
      - rewrite (vops_eq0_rn f mono). destruct (negb _); cbn [map]; now rewrite IH.
      - cbn [map]. now rewrite IH.
    Qed.
    Lemma drop_zeros_v_rn (t : ctape val Sym) : drop_zeros_v (rn_tape f t) = rn_tape f (drop_zeros_v t).
    Proof. unfold drop_zeros_v, rn_tape. cbn [ct_dir ct_l ct_r]. now rewrite !filter_rn. Qed.
    Lemma shape_rn (t : ctape val Sym) : shape (rn_tape f t) = shape t.
    Proof. unfold shape, rn_tape. cbn [ct_dir ct_l ct_r]. rewrite !map_map. reflexivity. Qed.
    Definition rn_vapplied (x : nat * option (prover_result val Sym * bool)) := (f (fst x), option_map (fun y => (rn_res (fst y), snd y)) (snd x)).
    Lemma apply_rule_v_rn next r (t : ctape val Sym) : apply_rule_v mr (f next) (rn_frule r) (rn_tape f t) = option_map rn_vapplied (apply_rule_v mr next r t).
    Proof.
      destruct r as [i d n seen|vars mins result inf n seen]; cbn [rn_frule apply_rule_v].
      - unfold apply_diff_rule_v. rewrite (nums_rn f).
        change (@nil (nat * (val * Z))) with (rn_vvals []) at 1. change (@None (val * nat * val)) with (rn_lim None) at 1. rewrite diff_scan_v_rn.
        destruct (diff_scan_v 0 _ None [] false) as [| |[[[[[reps li] final]|] vals] large]]; [reflexivity|reflexivity| |cbn [rn_pr fst snd rn_lim option_map]; now rewrite recur_rn].
        cbn [rn_pr fst snd rn_lim option_map].
        assert (X1 : match rv reps with VE e => e_is_const e | VS _ => false end = match reps with VE e => e_is_const e | VS _ => false end)
          by (destruct reps; [reflexivity|apply e_is_const_rn]).
        assert (X2 : match rv reps with VS q => Qle_bool q 0 | VE _ => false end = match reps with VS q => Qle_bool q 0 | VE _ => false end) by (destruct reps; reflexivity).
        rewrite X1, X2. destruct (match reps with VE e => e_is_const e | VS _ => false end); [reflexivity|].
        destruct (match reps with VS q => Qle_bool q 0 | VE _ => false end); [reflexivity|]. cbv zeta.
        match goal with |- match v_subst (rv n) ?l with _ => _ end = option_map _ match v_subst n ?l' with _ => _ end => 
          assert (E1 : l = rn_s f l') end.
        { unfold rn_vvals, rn_s. rewrite !map_map. apply map_ext. intros [x [a b]]. cbn [fst snd]. f_equal.
          change (VE (var_expr (f next))) with (rv (VE (var_expr next))).
          change (VS (inject_Z b)) with (rv (VS (inject_Z b))) at 1. now rewrite (v_mul_rn f mono), (v_add_rn f mono). }
        rewrite E1, (v_subst_rn f mono). destruct (v_subst n _) as [this|]; [|reflexivity]. cbn [option_map].
        rewrite series_sum_rn. destruct (series_sum this next reps) as [total|]; [|reflexivity].
        cbn [option_map]. rewrite diff_nums_v_rn.
        match goal with |- match seen_map_opt _ _ with _ => _ end = option_map _ match seen_map_opt (fun ls => v_subst _ ?l) _ with _ => _ end =>
          rewrite (seen_map_rn (fun ls => v_subst (v_sub total (v_sub n ls)) l)) end.
        { destruct (seen_map_opt _ seen) as [sn|]; [|reflexivity]. cbn [option_map]. destruct (diff_nums_v 0 reps li final _) as [ns|]; [|reflexivity].
          cbn [option_map]. unfold rn_vapplied. cbn [fst snd option_map rn_res]. now rewrite fS, shape_rn, (mk_rn f), drop_zeros_v_rn. }
        intros ls. match goal with |- v_subst _ ?l = ro (v_subst _ ?l') => assert (E2 : l = rn_s f l') end.
        { unfold rn_vvals, rn_s. rewrite !map_map. apply map_ext. intros [x [a b]]. cbn [fst snd]. f_equal.
          change (VS (inject_Z b)) with (rv (VS (inject_Z b))) at 1. change (VS 1%Q) with (rv (VS 1%Q)) at 1.
          now rewrite (v_sub_rn f mono), (v_mul_rn f mono), (v_add_rn f mono). }
        rewrite E2, !(v_sub_rn f mono). apply (v_subst_rn f mono).
      - unfold apply_general_rule_v. rewrite (nums_rn f). destruct mr as [|k]; [reflexivity|]. change (@nil (nat * val)) with (rn_s f []) at 1. rewrite fits_min_v_rn.
        destruct (fits_min_v (combine (combine vars mins) (nums t)) []) as [o|]; [|reflexivity]. cbn [option_map].
        assert (E0 : match option_map (rn_s f) o with Some _ => true | None => false end = match o with Some _ => true | None => false end) by (destruct o; reflexivity).
        rewrite E0, recur_rn. destruct (inf && _); [reflexivity|].
        change (@None subs) with (option_map (rn_s f) None) at 1. change (VS 0%Q) with (rv (VS 0%Q)) at 1. rewrite gen_reps_v_rn.
        destruct (gen_reps_v (S k) vars mins result n (nums t) (VS 0%Q) None) as [[|cur acc [last|]]|]; try reflexivity. cbn [option_map]. cbv zeta.
        rewrite shape_rn, (mk_rn f), drop_zeros_v_rn.
        destruct seen as [|kv seen]; [reflexivity|]. cbn [rn_seen map].
        change ((fst kv, rv (snd kv)) :: map (fun kv => (fst kv, rv (snd kv))) seen) with (rn_seen (kv :: seen)).
        rewrite (seen_map_rn (fun ls => v_subst (v_sub acc (v_sub n ls)) last)).
        { destruct (seen_map_opt _ (kv :: seen)); reflexivity. }
        intros ls. rewrite !(v_sub_rn f mono). apply (v_subst_rn f mono).
    Qed.
    Definition rn_rrule (r : rrule) : rrule := RRule (rn_frule (rr_rule r)) (rr_meta r).
    Lemma frozen_rn rules next (t : ctape val Sym) q l :
      frozen_apply M mr (rn_rules rn_rrule rules) (f next) (rn_tape f t) q l =
      option_map (fun x => (f (fst x), rn_res (snd x))) (frozen_apply M mr rules next t q l).
    Proof.
      unfold frozen_apply. rewrite (strip_rn f mono), kget_rn. destruct (kget M _ rules) as [r|]; [|reflexivity]. cbn [option_map rn_rrule rr_rule].
      rewrite apply_rule_v_rn. destruct (apply_rule_v mr next (rr_rule r) t) as [[nx [[x b]|]]|]; reflexivity.
    Qed.
    Lemma gen_loop_v_rn rules d : forall next s m, gen_loop_v M mr (rn_rules rn_rrule rules) d (f next) (rn_full s) (rn_d f m) =
      match gen_loop_v M mr rules d next s m with POk (nx, s, m) => POk (f nx, rn_full s, rn_d f m) | PFail => PFail | PExn => PExn end.
    Proof.
      induction d as [|d IH]; intros next s m; [reflexivity|]. cbn [gen_loop_v]. change (s_tape (rn_full s)) with (rn_tape f (s_tape s)). rewrite (ct_top_rn f).
      destruct (ct_top (s_tape s)) as [b|]; [|reflexivity]. cbn [option_map]. change (k_num (rn_b f b)) with (ro (k_num b)). rewrite (num_le0_rn f).
      destruct (num_le0 (k_num b)); [reflexivity|]. rewrite (vstep_rn _ (frozen_apply M mr rules) f (frozen_rn rules)).
      destruct (sim_step vops M (frozen_apply M mr rules) (next, s)) as [[nx s1]|]; [|reflexivity]. cbn [option_map fst snd]. change (s_op (rn_full s1)) with (s_op s1).
      destruct (negb _); [reflexivity|]. change (s_tape (rn_full s1)) with (rn_tape f (s_tape s1)). rewrite (nums_rn f), (update_min_rn f mono).
      destruct (update_min (nums (s_tape s1)) m) as [| |m1]; try reflexivity. cbn [P_Rename.rn_pr]. apply IH.
    Qed.
    Lemma prove_rule_v_rn rules next t q d :
      prove_rule_v M mr (rn_rules rn_rrule rules) (f next) t q d = option_map (rn_proved rn_rrule) (prove_rule_v M mr rules next t q d).
    Proof.
      unfold prove_rule_v. rewrite gen_nums_rn. destruct (gen_nums next (nums t)) as [[[nx i] m]|]; [|reflexivity]. cbn [option_map].
      rewrite gen_sim0_rn, gen_loop_v_rn. destruct (gen_loop_v M mr rules d nx (gen_sim0 t q i) m) as [| |[[nx' s] m']]; [reflexivity|reflexivity|].
      change (s_state (rn_full s)) with (s_state s). change (s_tape (rn_full s)) with (rn_tape f (s_tape s)).
      rewrite (strip_rn f mono), (nums_rn f). destruct (negb _); [reflexivity|]. cbv zeta.
      rewrite (diffs_rn f mono), scalars_rn. change (s_seen (rn_full s)) with (option_map rn_seen (s_seen s)). change (s_rules (rn_full s)) with (s_rules s).
      destruct (s_seen s) as [seen|]; [|reflexivity]. cbn [option_map]. rewrite make_diff_rn, make_gen_v_rn.
      destruct (forallb num_scalar _).
      - destruct (Nat.ltb 0 (s_rules s)).
        + cbn [option_map]. unfold rn_proved, rn_rrule, make_meta_diff. cbn [fst snd option_map rr_rule rr_meta rn_frule rn_full s_steps]. destruct (s_steps s); reflexivity.
        + destruct (make_diff _ _ _ _ _); reflexivity.
      - destruct (make_gen_v _ _ _ _ _); reflexivity.
    Qed.
    Lemma tape_val_rn (t : ctape Z Sym) : rn_tape f (tape_val t) = tape_val t.
    Proof.
      unfold tape_val, rn_tape. cbn [ct_dir ct_l ct_r]. rewrite !map_map. 
      assert (E : forall h : list (blk Z Sym), map (fun x => rn_b f (Blk (k_sym x) (option_map (fun z => VS (inject_Z z)) (k_num x)))) h =
         map (fun b => Blk (k_sym b) (option_map (fun z => VS (inject_Z z)) (k_num b))) h).
      { intros h. apply map_ext. intros [y [z|]]; reflexivity. }
      now rewrite !E.
    Qed.
    Lemma map_opt_eq {A B} (g h : A -> option B) l : (forall a, g a = h a) -> map_opt g l = map_opt h l.
    Proof. intros E. induction l as [|a l IH]; [reflexivity|]. cbn [map_opt]. now rewrite E, IH. Qed.
    Lemma half_int_rn (h : list (blk val Sym)) : half_int (map (rn_b f) h) = half_int h.
    Proof.
      unfold half_int. rewrite map_opt_map. apply map_opt_eq. intros [y [v|]]; [|reflexivity]. cbn [rn_b k_sym k_num option_map inf_opt]. now rewrite (v_int_rn f).
    Qed.
    Lemma result_int_rn r : result_int (rn_res r) = result_int r.
    Proof.
      destruct r as [|t n seen|states]; try reflexivity. cbn [rn_res result_int].
      assert (E : tape_int (rn_tape f t) = tape_int t) by (unfold tape_int; cbn [rn_tape ct_l ct_r ct_dir]; now rewrite !half_int_rn).
      rewrite E, (v_int_rn f). destruct seen as [sn|]; [|reflexivity]. cbn [option_map inf_opt]. rewrite (seen_map_z v_int); [reflexivity|apply v_int_rn].
    Qed.
    Lemma apply_rule_z_rn next r (t : ctape Z Sym) : apply_rule_z mr (f next) (rn_frule r) t = option_map rn_applied (apply_rule_z mr next r t).
    Proof.
      unfold apply_rule_z. rewrite <- (tape_val_rn t) at 1. rewrite apply_rule_v_rn.
      destruct (apply_rule_v mr next r (tape_val t)) as [[nx [[x b]|]]|]; try reflexivity. cbn [option_map rn_vapplied fst snd]. rewrite result_int_rn.
      destruct (result_int x); reflexivity.
    Qed.
    Definition rn_rprover (p : rprover Sym St) : rprover Sym St := RProver (rn_rules rn_rrule (rp_rules p)) (rp_past p) (f (rp_next p)).
    Lemma lap_r_rn p t q l : log_and_apply_r M mc mr (rn_rprover p) t q l = option_map (fun x => (rn_rprover (fst x), snd x)) (log_and_apply_r M mc mr p t q l).
    Proof.
      unfold log_and_apply_r. cbn [rn_rprover rp_rules rp_past rp_next]. rewrite kget_rn. destruct (kget M _ (rp_rules p)) as [r|]; cbn [option_map].
      - change (rr_rule (rn_rrule r)) with (rn_frule (rr_rule r)). rewrite apply_rule_z_rn. destruct (apply_rule_z mr (rp_next p) (rr_rule r) t) as [[nx [[o b]|]]|]; reflexivity.
      - destruct (log_config _ l) as [[|] pc']; cbv zeta; cbn [rp_rules rp_past rp_next].
        2: { destruct (Nat.ltb mc _); reflexivity. }
        rewrite prove_rule_v_rn. destruct (prove_rule_v M mr (rp_rules p) (rp_next p) t q _) as [[nx [r|]]|]; try reflexivity.
        cbn [option_map rn_proved fst snd]. change (rr_rule (rn_rrule r)) with (rn_frule (rr_rule r)). rewrite apply_rule_z_rn.
        destruct (apply_rule_z mr nx (rr_rule r) t) as [[nx' o]|]; [|reflexivity].
        cbn [option_map rn_applied fst snd]. unfold rn_rprover, add_rule_r. cbn [rp_rules rp_past rp_next]. now rewrite kset_rn.
    Qed.
  End Machine.

  (** ** the prover of limited rules *)
  Section Limited.
    Context {Sym St : Type} (M : machine Sym St) (mc mr : nat) (order : forall A, list A -> list A).
    Hypothesis natural : forall A B (g : A -> B) l, order B (map g l) = map g (order A l).
    Lemma half_rn' d (t : ctape val (Sym * option nat)) : half d (rn_tape f t) = map (rn_b f) (half d t).
    Proof. destruct d; reflexivity. Qed.
    Lemma lim_loop_rn d : forall s m mo, lim_loop M d (rn_full s) (rn_d f m) mo =
      match lim_loop M d s m mo with POk (s, m, mo) => POk (rn_full s, rn_d f m, mo) | PFail => PFail | PExn => PExn end.
    Proof.
      induction d as [|d IH]; intros s m mo; [reflexivity|]. cbn [lim_loop]. change (s_tape (rn_full s)) with (rn_tape f (s_tape s)). rewrite (ct_top_rn f).
      destruct (ct_top (s_tape s)) as [b|]; [|reflexivity]. cbn [option_map]. change (k_num (rn_b f b)) with (ro (k_num b)). rewrite (num_le0_rn f).
      destruct (num_le0 (k_num b)); [reflexivity|]. cbv zeta. change (loop_inc (rn_full s)) with (rn_full (loop_inc s)). rewrite move_rn.
      destruct (sim_move vops (id_machine M) (loop_inc s)) as [s1|]; [|reflexivity]. cbn [option_map]. change (s_tape (rn_full s1)) with (rn_tape f (s_tape s1)).
      change (ct_dir (rn_tape f (s_tape s1))) with (ct_dir (s_tape s1)). rewrite half_rn'. destruct (half (opp (ct_dir (s_tape s1))) (s_tape s1)) as [|w h]; [reflexivity|]. cbn [map].
      change (s_op (rn_full s1)) with (s_op s1). destruct (negb _); [reflexivity|]. rewrite (nums_rn f), (update_min_rn f mono).
      destruct (update_min (nums (s_tape s1)) m) as [| |m1]; try reflexivity. cbn [P_Rename.rn_pr]. apply IH.
    Qed.
    Lemma id_half_rn h : forall i, id_half i (map (rn_b f) h) = map (rn_b f) (@id_half val Sym i h).
    Proof. induction h as [|b h IH]; intros i; [reflexivity|]. cbn [map id_half]. now rewrite IH. Qed.
    Lemma id_tape_rn (t : ctape val Sym) : id_tape (rn_tape f t) = rn_tape f (id_tape t).
    Proof. unfold id_tape, rn_tape. cbn [ct_dir ct_l ct_r]. now rewrite !id_half_rn. Qed.
    Lemma un_tape_rn (t : ctape val (Sym * option nat)) : un_tape (rn_tape f t) = rn_tape f (un_tape t).
    Proof. unfold un_tape, rn_tape. cbn [ct_dir ct_l ct_r]. rewrite !map_map. reflexivity. Qed.
    Lemma un_sim_rn (s : sim val (Sym * option nat) St) : un_sim (rn_full s) = rn_full (un_sim s).
    Proof. unfold un_sim. cbn [rn_full s_tape]. rewrite un_tape_rn. reflexivity. Qed.
    Lemma lim_sim0_rn (t : ctape Z Sym) (q : St) i : lim_sim0 t q (map ro i) = rn_full (lim_sim0 t q i).
    Proof. unfold lim_sim0, rn_full. cbn [s_tape s_state s_dir s_steps s_loops s_op s_details s_seen s_inf s_rules]. now rewrite (mk_rn f), id_tape_rn. Qed.
    Lemma near_map {A B} (g : A -> B) d h : near d (map g h) = map g (near d h).
    Proof. destruct d; [reflexivity|]. cbn [near]. apply firstn_map. Qed.
    Lemma cut_map {A B} (g : A -> B) nl dl dr ns : cut nl dl dr (map g ns) = map g (cut nl dl dr ns).
    Proof. unfold cut. now rewrite firstn_map, skipn_map, <- !map_rev, !near_map, <- !map_rev, map_app. Qed.
    Definition rn_lrule (r : lrule) : lrule := LRule (map ro (lr_init r)) (map ro (lr_diff r)) (rv (lr_steps r)) (rn_seen (lr_seen r)) (lr_left r) (lr_right r).
    Definition rn_new (r : lrule + rule) : lrule + rule := match r with inl r => inl (rn_lrule r) | inr r => inr (rn_frule r) end.
    Lemma prove_lim_rn next t q d : prove_lim M (f next) t q d = option_map (rn_proved rn_new) (prove_lim M next t q d).
    Proof.
      unfold prove_lim. rewrite gen_nums_rn. destruct (gen_nums next (nums t)) as [[[nx i] m]|]; [|reflexivity]. cbn [option_map].
      rewrite lim_sim0_rn, lim_loop_rn. destruct (lim_loop M d (lim_sim0 t q i) m _) as [| |[[s m'] [dl dr]]]; [reflexivity|reflexivity|]. cbv zeta.
      rewrite un_sim_rn. change (s_state (rn_full (un_sim s))) with (s_state (un_sim s)). change (s_tape (rn_full (un_sim s))) with (rn_tape f (s_tape (un_sim s))).
      rewrite (strip_rn f mono), (nums_rn f). destruct (negb _); [reflexivity|].
      rewrite (diffs_rn f mono), scalars_rn. change (s_seen (rn_full (un_sim s))) with (option_map rn_seen (s_seen (un_sim s))).
      destruct (s_seen (un_sim s)) as [seen|]; [|reflexivity]. cbn [option_map]. rewrite make_diff_rn, make_gen_rn.
      destruct (forallb num_scalar _).
      - destruct (make_diff _ _ _ _ _) as [[ti td n sn|? ? ? ? ? ?]|]; try reflexivity. cbn [option_map rn_frule]. rewrite !cut_map. reflexivity.
      - destruct (make_gen _ _ _ _ _); reflexivity.
    Qed.
    Lemma apply_lim_rn next r (t : ctape Z Sym) : apply_lim (f next) (rn_lrule r) t = option_map rn_applied (apply_lim next r t).
    Proof.
      unfold apply_lim. cbn [rn_lrule lr_init lr_diff lr_steps lr_seen lr_left lr_right]. cbv zeta.
      pose proof (apply_rule_rn mr next (RDiff (lr_init r) (lr_diff r) (lr_steps r) (lr_seen r))
        (CTape (ct_dir t) (near (lr_left r) (ct_l t)) (near (lr_right r) (ct_r t)))) as E.
      cbn [rn_frule apply_rule] in E. rewrite E. destruct (apply_diff_rule next _ _ _ _ _) as [[nx [[|t' n sn|l]|]]|]; reflexivity.
    Qed.
    Lemma try_lim_rn (t : ctape Z Sym) rs : forall next, try_lim (f next) (map rn_lrule rs) t = option_map rn_applied (try_lim next rs t).
    Proof.
      induction rs as [|r rs IH]; intros next; [reflexivity|]. cbn [map try_lim]. rewrite apply_lim_rn.
      destruct (apply_lim next r t) as [[nx [x|]]|]; cbn [option_map rn_applied fst snd]; try reflexivity. apply IH.
    Qed.
    Definition rn_lrules (l : list (lkey (Sym:=Sym) (St:=St) * lkey (Sym:=Sym) (St:=St) * lrule)) := map (fun e => (fst e, rn_lrule (snd e))) l.
    Definition rn_lprover (p : lprover (Sym:=Sym) (St:=St)) : lprover := LProver (rn_lrules (lp_rules p)) (lp_past p) (f (lp_next p)).
    Lemma found_rn p k : lim_found M (rn_lprover p) k = map rn_lrule (lim_found M p k).
    Proof.
      destruct k as [[[q d] l] r]. unfold lim_found. cbn [rn_lprover lp_rules]. induction (lp_rules p) as [|e es IH]; [reflexivity|].
      cbn [rn_lrules map filter fst snd]. destruct (_ && _); cbn [map snd fst]; [f_equal|]; exact IH.
    Qed.
    Lemma lap_lim_rn p t q l : log_and_apply_lim M mc mr order (rn_lprover p) t q l = option_map (fun x => (rn_lprover (fst x), snd x)) (log_and_apply_lim M mc mr order p t q l).
    Proof.
      unfold log_and_apply_lim. cbv zeta. rewrite found_rn, natural. cbn [rn_lprover lp_rules lp_past lp_next]. rewrite try_lim_rn.
      destruct (try_lim (lp_next p) _ t) as [[nx [x|]]|]; cbn [option_map rn_applied fst snd]; try reflexivity.
      destruct (log_config _ l) as [[|] pc']; cbn [lp_rules lp_past lp_next].
      2: { destruct (Nat.ltb mc _); reflexivity. }
      rewrite prove_lim_rn. destruct (prove_lim M nx t q _) as [[nx' [r|]]|]; try reflexivity.
      cbn [option_map rn_proved fst snd].
      assert (E : apply_new mr (f nx') (rn_new r) t = option_map rn_applied (apply_new mr nx' r t)).
      { destruct r as [r|r]; cbn [rn_new apply_new]; [apply apply_lim_rn|apply apply_rule_rn]. }
      rewrite E. destruct (apply_new mr nx' r t) as [[nx2 o]|]; [|reflexivity].
      cbn [option_map rn_applied fst snd]. unfold rn_lprover, add_lim. destruct (strip_config z_is1 q t) as [[[q0 d0] hl] hr]. cbn [lp_rules lp_past lp_next].
      destruct r as [r|r]; cbn [rn_new]; [|reflexivity]. unfold rn_lrules. rewrite map_app. reflexivity.
    Qed.
  End Limited.
End Shift.
