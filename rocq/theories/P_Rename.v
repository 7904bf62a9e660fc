(** * Renaming the variables of expressions by a monotone function changes nothing *)
Require Import ZArith List Lia Bool Arith QArith.
From Verif Require Import Spec_TM M_Turing_Machine M_Expr M_Tape M_Simulator M_Prover M_NoSteps.
Import ListNotations.

Section Rename.
  Variable f : nat -> nat.
  Hypothesis mono : forall x y, (x < y)%nat -> (f x < f y)%nat.

  Lemma f_ltb x y : Nat.ltb (f x) (f y) = Nat.ltb x y.
  Proof.
    destruct (Nat.ltb_spec x y) as [H|H].
    - apply Nat.ltb_lt. auto.
    - apply Nat.ltb_ge. destruct (Nat.eq_dec x y) as [-> |N]; [lia|].
      assert (E : (f y < f x)%nat) by (apply mono; lia). lia.
  Qed.
  Lemma f_inj x y : f x = f y -> x = y.
  Proof.
    intros E. destruct (Nat.lt_trichotomy x y) as [H|[H|H]]; auto; apply mono in H; lia.
  Qed.
  Lemma f_eqb x y : Nat.eqb (f x) (f y) = Nat.eqb x y.
  Proof.
    destruct (Nat.eqb_spec x y) as [-> |N]; [apply Nat.eqb_refl|].
    apply Nat.eqb_neq. intros E. now apply f_inj in E.
  Qed.

  Definition rn_p (vp : var_power) : var_power := (f (fst vp), snd vp).
  Definition rn_t (t : term) : term := Term (map rn_p (t_vars t)) (t_coef t).
  Definition rn_e (e : expr) : expr := Expr (map rn_t (e_terms e)) (e_const e).
  Definition rn_v (v : val) : val := match v with VS q => VS q | VE e => VE (rn_e e) end.
  Definition rn_s (s : subs) : subs := map (fun xv => (f (fst xv), rn_v (snd xv))) s.

  Lemma compare_vps_rn a : forall b, compare_vps (map rn_p a) (map rn_p b) = compare_vps a b.
  Proof.
    induction a as [|[x p] a IH]; intros [|[y r] b]; try reflexivity.
    cbn [map rn_p fst snd compare_vps]. now rewrite !f_ltb, IH.
  Qed.
  Lemma compare_terms_rn a b : compare_terms (rn_t a) (rn_t b) = compare_terms a b.
  Proof. unfold compare_terms, rn_t; cbn [t_vars]. now rewrite !map_length, compare_vps_rn. Qed.
  Lemma term_sum_rn a : forall b, term_sum (map rn_t a) (map rn_t b) = map rn_t (term_sum a b).
  Proof.
    induction a as [|t a IH]; intros b; [destruct b; reflexivity|].
    induction b as [|u b IHb]; [reflexivity|].
    cbn [map term_sum]. rewrite compare_terms_rn. cbn [t_coef rn_t t_vars].
    destruct (compare_terms t u).
    - destruct (qz (t_coef t + t_coef u)); [apply IH|]. cbn [map]. now rewrite IH.
    - cbn [map]. f_equal. apply (IH (u :: b)).
    - cbn [map]. f_equal. exact IHb.
  Qed.
  Lemma e_add_rn a b : e_add (rn_e a) (rn_e b) = rn_e (e_add a b).
  Proof. unfold e_add, rn_e; cbn [e_terms e_const]. now rewrite term_sum_rn. Qed.
  Lemma e_mulS_rn a q : e_mulS (rn_e a) q = rn_e (e_mulS a q).
  Proof. unfold e_mulS, rn_e. cbn [e_terms e_const]. destruct (qz q); [reflexivity|]. cbn [e_terms e_const]. rewrite !map_map. reflexivity. Qed.
  Lemma vars_prod_rn a : forall b, vars_prod (map rn_p a) (map rn_p b) = map rn_p (vars_prod a b).
  Proof.
    induction a as [|[x p] a IH]; intros b; [destruct b; reflexivity|].
    induction b as [|[y r] b IHb]; [reflexivity|].
    cbn [map vars_prod rn_p fst snd]. rewrite !f_ltb.
    destruct (Nat.ltb x y).
    - cbn [map rn_p fst snd]. f_equal. apply (IH ((y, r) :: b)).
    - destruct (Nat.ltb y x); cbn [map rn_p fst snd]; f_equal; [exact IHb|apply IH].
  Qed.
  Lemma expr_prod_rn a b : expr_prod (rn_e a) (rn_e b) = rn_e (expr_prod a b).
  Proof.
    unfold expr_prod. cbn [rn_e e_terms e_const].
    assert (Inner : forall t1 l acc,
      fold_left (fun acc t2 => e_add acc (Expr [Term (vars_prod (t_vars (rn_t t1)) (t_vars t2)) (t_coef (rn_t t1) * t_coef t2)] 0))
        (map rn_t l) (rn_e acc) =
      rn_e (fold_left (fun acc t2 => e_add acc (Expr [Term (vars_prod (t_vars t1) (t_vars t2)) (t_coef t1 * t_coef t2)] 0)) l acc)).
    { intros t1 l. induction l as [|u l IH]; intros acc; [reflexivity|]. cbn [map fold_left]. rewrite <- IH. f_equal.
      rewrite <- e_add_rn. f_equal. unfold rn_e, rn_t. cbn [e_terms e_const map t_vars t_coef]. now rewrite vars_prod_rn. }
    assert (Outer : forall l acc,
      fold_left (fun acc t1 =>
        let acc := fold_left (fun acc t2 => e_add acc (Expr [Term (vars_prod (t_vars t1) (t_vars t2)) (t_coef t1 * t_coef t2)] 0))
           (map rn_t (e_terms b)) acc in
        e_add acc (e_mulS (Expr [t1] 0) (e_const b))) (map rn_t l) (rn_e acc) =
      rn_e (fold_left (fun acc t1 =>
        let acc := fold_left (fun acc t2 => e_add acc (Expr [Term (vars_prod (t_vars t1) (t_vars t2)) (t_coef t1 * t_coef t2)] 0))
           (e_terms b) acc in
        e_add acc (e_mulS (Expr [t1] 0) (e_const b))) l acc)).
    { induction l as [|u l IH]; intros acc; [reflexivity|]. cbn [map fold_left]. rewrite <- IH. f_equal. cbv zeta.
      rewrite Inner. change (Expr [rn_t u] 0) with (rn_e (Expr [u] 0)). now rewrite e_mulS_rn, e_add_rn. }
    change (Expr (map rn_t (e_terms b)) (e_const b)) with (rn_e b). rewrite e_mulS_rn.
    change (Expr (@nil term) 0) with (rn_e (Expr [] 0)) at 1. rewrite Outer. now rewrite e_add_rn.
  Qed.
  Lemma v_add_rn a b : v_add (rn_v a) (rn_v b) = rn_v (v_add a b).
  Proof. destruct a, b; try reflexivity. cbn [rn_v v_add]. now rewrite e_add_rn. Qed.
  Lemma v_mul_rn a b : v_mul (rn_v a) (rn_v b) = rn_v (v_mul a b).
  Proof. destruct a, b; cbn [rn_v v_mul]; rewrite ?e_mulS_rn, ?expr_prod_rn; reflexivity. Qed.
  Lemma v_neg_rn a : v_neg (rn_v a) = rn_v (v_neg a).
  Proof. destruct a; cbn [rn_v v_neg]; rewrite ?e_mulS_rn; reflexivity. Qed.
  Lemma v_sub_rn a b : v_sub (rn_v a) (rn_v b) = rn_v (v_sub a b).
  Proof. unfold v_sub. now rewrite v_neg_rn, v_add_rn. Qed.
  Lemma e_pow_rn e n : e_pow (rn_e e) n = rn_v (e_pow e n).
  Proof. induction n as [|n IH]; [reflexivity|]. cbn [e_pow]. rewrite IH. apply (v_mul_rn _ (VE e)). Qed.
  Lemma v_pow_rn a n : v_pow (rn_v a) n = rn_v (v_pow a n).
  Proof. destruct a; [reflexivity|apply e_pow_rn]. Qed.
  Lemma subs_get_rn x s : subs_get (f x) (rn_s s) = option_map rn_v (subs_get x s).
  Proof. induction s as [|[y v] s IH]; [reflexivity|]. cbn [rn_s map subs_get fst snd]. rewrite f_eqb. destruct (Nat.eqb x y); [reflexivity|exact IH]. Qed.
  Lemma var_expr_rn x : var_expr (f x) = rn_e (var_expr x).
  Proof. reflexivity. Qed.
  Lemma vp_subst_rn s vp : vp_subst (rn_s s) (rn_p vp) = rn_v (vp_subst s vp).
  Proof.
    destruct vp as [x p]. unfold vp_subst. cbn [rn_p fst snd]. rewrite subs_get_rn. destruct (subs_get x s) as [v|]; cbn [option_map].
    - destruct (Nat.eqb p 1); [reflexivity|apply v_pow_rn].
    - rewrite var_expr_rn. apply e_pow_rn.
  Qed.
  Lemma fold_mul_rn l : forall v, fold_left v_mul (map rn_v l) (rn_v v) = rn_v (fold_left v_mul l v).
  Proof. induction l as [|w l IH]; intros v; [reflexivity|]. cbn [map fold_left]. now rewrite v_mul_rn, IH. Qed.
  Lemma term_subst_rn s t : term_subst (rn_s s) (rn_t t) = option_map rn_v (term_subst s t).
  Proof.
    unfold term_subst. cbn [rn_t t_vars t_coef]. rewrite map_map.
    rewrite (map_ext _ (fun vp => rn_v (vp_subst s vp)) (vp_subst_rn s)). rewrite <- (map_map (vp_subst s) rn_v).
    destruct (map (vp_subst s) (t_vars t)) as [|v l]; [reflexivity|]. cbn [map option_map]. rewrite fold_mul_rn.
    f_equal. exact (v_mul_rn _ (VS _)).
  Qed.
  Lemma terms_subst_rn s ts : forall acc, terms_subst (rn_s s) (map rn_t ts) (rn_v acc) = option_map rn_v (terms_subst s ts acc).
  Proof.
    induction ts as [|t ts IH]; intros acc; [reflexivity|]. cbn [map terms_subst]. rewrite term_subst_rn.
    destruct (term_subst s t) as [v|]; [|reflexivity]. cbn [option_map]. now rewrite v_add_rn, IH.
  Qed.
  Lemma e_subst_rn e s : e_subst (rn_e e) (rn_s s) = option_map rn_v (e_subst e s).
  Proof.
    unfold e_subst. cbn [rn_e e_terms e_const]. change (VS 0) with (rn_v (VS 0)) at 1. rewrite terms_subst_rn.
    destruct (terms_subst s (e_terms e) (VS 0)) as [v|]; [|reflexivity]. cbn [option_map]. f_equal. exact (v_add_rn _ (VS _)).
  Qed.
  Lemma e_is_const_rn e : e_is_const (rn_e e) = e_is_const e.
  Proof. unfold e_is_const. destruct e as [[|t l] c]; reflexivity. Qed.
  Lemma v_subst_rn v s : v_subst (rn_v v) (rn_s s) = option_map rn_v (v_subst v s).
  Proof.
    destruct v as [q|e]; [reflexivity|]. cbn [rn_v v_subst]. rewrite e_is_const_rn. destruct (e_is_const e); [reflexivity|]. apply e_subst_rn.
  Qed.
  Lemma existsb_map {A B} (g : A -> B) (p : B -> bool) l : existsb p (map g l) = existsb (fun a => p (g a)) l.
  Proof. induction l as [|a l IH]; [reflexivity|]. cbn [map existsb]. now rewrite IH. Qed.
  Lemma forallb_map {A B} (g : A -> B) (p : B -> bool) l : forallb p (map g l) = forallb (fun a => p (g a)) l.
  Proof. induction l as [|a l IH]; [reflexivity|]. cbn [map forallb]. now rewrite IH. Qed.
  Lemma v_min_val_rn v : v_min_val (rn_v v) = v_min_val v.
  Proof. destruct v as [q|e]; [reflexivity|]. cbn [rn_v v_min_val rn_e e_terms e_const]. rewrite existsb_map. reflexivity. Qed.
  Lemma always_ge_rn a b : always_ge (rn_v a) (rn_v b) = always_ge a b.
  Proof. unfold always_ge. now rewrite v_sub_rn, v_min_val_rn. Qed.
  Lemma e_eqb_rn a q : e_eqb (rn_e a) (VS q) = e_eqb a (VS q).
  Proof.
    unfold e_eqb. change (VE (rn_e a)) with (rn_v (VE a)). change (VS q) with (rn_v (VS q)) at 1. rewrite v_sub_rn.
    destruct (v_sub (VE a) (VS q)) as [p|d]; [reflexivity|]. cbn [rn_v rn_e e_const e_terms]. now rewrite forallb_map.
  Qed.
  Lemma is_var_plus_const_rn e : is_var_plus_const (rn_e e) = is_var_plus_const e.
  Proof. unfold is_var_plus_const. destruct e as [[|t [|u l]] c]; try reflexivity. cbn [rn_e e_terms map rn_t t_coef t_vars]. destruct (t_vars t) as [|[x p] [|? ?]]; reflexivity. Qed.
  Lemma variable_restricted_rn e : variable_restricted (rn_e e) = option_map f (variable_restricted e).
  Proof.
    unfold variable_restricted. rewrite is_var_plus_const_rn. destruct (is_var_plus_const e); [|reflexivity].
    destruct e as [[|t [|u l]] c]; try reflexivity. cbn [rn_e e_terms map rn_t t_vars]. destruct (t_vars t) as [|[x p] [|? ?]]; reflexivity.
  Qed.
  Lemma as_strictly_linear_rn e : as_strictly_linear (rn_e e) =
    option_map (fun xab => (f (fst (fst xab)), snd (fst xab), snd xab)) (as_strictly_linear e).
  Proof.
    unfold as_strictly_linear. destruct e as [[|t [|u l]] c]; try reflexivity. cbn [rn_e e_terms map rn_t t_vars e_const t_coef].
    destruct (t_vars t) as [|[x p] [|? ?]]; try reflexivity. cbn [map rn_p fst snd]. destruct (Nat.eqb p 1); reflexivity.
  Qed.
  Lemma v_variables_rn v : v_variables (rn_v v) = map f (v_variables v).
  Proof.
    destruct v as [q|e]; [reflexivity|]. cbn [rn_v v_variables]. rewrite e_is_const_rn. destruct (e_is_const e); [reflexivity|].
    unfold e_variables. cbn [rn_e e_terms]. induction (e_terms e) as [|t l IH]; [reflexivity|]. cbn [map flat_map]. rewrite map_app, <- IH. f_equal.
    cbn [rn_t t_vars]. rewrite !map_map. reflexivity.
  Qed.
  Lemma nodup_rn l : nodup Nat.eq_dec (map f l) = map f (nodup Nat.eq_dec l).
  Proof.
    induction l as [|x l IH]; [reflexivity|]. cbn [map nodup].
    destruct (in_dec Nat.eq_dec x l) as [H|H]; destruct (in_dec Nat.eq_dec (f x) (map f l)) as [H'|H']; auto.
    - exfalso. apply H'. now apply in_map.
    - exfalso. apply in_map_iff in H'. destruct H' as (y & E & Hy). apply f_inj in E. subst; auto.
    - cbn [map]. now rewrite IH.
  Qed.
  Lemma v_int_rn v : v_int (rn_v v) = v_int v.
  Proof. destruct v; reflexivity. Qed.
  Lemma v_is1_rn v : v_is1 (rn_v v) = v_is1 v.
  Proof. destruct v; [reflexivity|]. apply e_eqb_rn. Qed.
  Lemma vops_eq0_rn v : n_eq0 vops (rn_v v) = n_eq0 vops v.
  Proof. destruct v; [reflexivity|]. apply (e_eqb_rn e 0). Qed.

  (** dicts with variables as keys *)
  Definition rn_d {N} (d : ndict N) : ndict N := map (fun kv => (f (fst kv), snd kv)) d.
  Lemma nd_get_rn {N} x (d : ndict N) : nd_get (f x) (rn_d d) = nd_get x d.
  Proof. induction d as [|[y v] d IH]; [reflexivity|]. cbn [rn_d map nd_get fst snd]. rewrite f_eqb. destruct (Nat.eqb x y); [reflexivity|exact IH]. Qed.
  Lemma nd_set_rn {N} x (v : N) d : nd_set (f x) v (rn_d d) = rn_d (nd_set x v d).
  Proof.
    induction d as [|[y w] d IH]; [reflexivity|]. cbn [rn_d map nd_set fst snd]. rewrite f_eqb.
    destruct (Nat.eqb x y); [reflexivity|]. cbn [rn_d map fst snd]. f_equal. exact IH.
  Qed.

  (** ** tapes whose counts are expressions *)
  Notation rn_n := (option_map rn_v).
  Definition rn_b {Sym} (b : blk val Sym) : blk val Sym := Blk (k_sym b) (rn_n (k_num b)).
  Definition rn_tape {Sym} (t : ctape val Sym) : ctape val Sym := CTape (ct_dir t) (map rn_b (ct_l t)) (map rn_b (ct_r t)).

  Section Tape.
    Context {Sym : Type} (eqb : Sym -> Sym -> bool).
    Lemma half_rn d (t : ctape val Sym) : half d (rn_tape t) = map rn_b (half d t).
    Proof. destruct d; reflexivity. Qed.
    Lemma set_half_rn d h (t : ctape val Sym) : set_half d (map rn_b h) (rn_tape t) = rn_tape (set_half d h t).
    Proof. destruct d; reflexivity. Qed.
    Lemma ct_top_rn (t : ctape val Sym) : ct_top (rn_tape t) = option_map rn_b (ct_top t).
    Proof. unfold ct_top. rewrite (half_rn (ct_dir t)). destruct (half (ct_dir t) t); reflexivity. Qed.
    Lemma pop_one_rn (h : list (blk val Sym)) : pop_one vops (map rn_b h) = option_map (map rn_b) (pop_one vops h).
    Proof.
      destruct h as [|[s [n|]] h]; try reflexivity. unfold pop_one. cbn [map rn_b k_num k_sym option_map].
      change (n_add vops (rn_v n) (n_of vops (-1))) with (v_add (rn_v n) (rn_v (n_of vops (-1)))). rewrite v_add_rn, vops_eq0_rn.
      destruct (n_eq0 vops (v_add n (n_of vops (-1)))) eqn:E; cbn [n_add vops] in *; rewrite E; reflexivity.
    Qed.
    Lemma push_num_rn (h : list (blk val Sym)) s n :
      push_num vops eqb (map rn_b h) s (rn_v n) = option_map (map rn_b) (push_num vops eqb h s n).
    Proof.
      destruct h as [|[s' [k|]] h]; try reflexivity; unfold push_num; cbn [map rn_b k_num k_sym option_map];
        destruct (eqb s' s); try reflexivity.
      cbn [map rn_b k_num k_sym option_map]. cbn [n_add vops]. now rewrite v_add_rn.
    Qed.
    Lemma single_rn (t : ctape val Sym) s d : apply_single_move vops eqb (rn_tape t) s d = option_map rn_tape (apply_single_move vops eqb t s d).
    Proof.
      unfold apply_single_move. rewrite (half_rn (ct_dir t)), pop_one_rn. destruct (pop_one vops (half (ct_dir t) t)) as [h|]; [|reflexivity].
      cbn [option_map]. change (ct_dir (rn_tape t)) with (ct_dir t). rewrite set_half_rn, half_rn.
      change (n_of vops 1) with (rn_v (n_of vops 1)) at 1. rewrite push_num_rn.
      destruct (push_num vops eqb (half (opp d) (set_half (ct_dir t) h t)) s (n_of vops 1)) as [h2|]; [|reflexivity].
      cbn [option_map]. rewrite set_half_rn. reflexivity.
    Qed.
    Lemma chain_rn (t : ctape val Sym) s :
      apply_chain_move vops eqb (rn_tape t) s =
      option_map (fun tn => (rn_tape (fst tn), rn_n (snd tn))) (apply_chain_move vops eqb t s).
    Proof.
      unfold apply_chain_move. change (ct_dir (rn_tape t)) with (ct_dir t). rewrite half_rn. destruct (half (ct_dir t) t) as [|b h]; [reflexivity|]. cbn [map rn_b k_num].
      destruct (k_num b) as [n|]; [|reflexivity]. cbn [option_map]. rewrite set_half_rn.
      change (ct_dir (rn_tape (set_half (ct_dir t) h t))) with (ct_dir (set_half (ct_dir t) h t)).
      rewrite half_rn, push_num_rn. destruct (push_num vops eqb (half (opp (ct_dir (set_half (ct_dir t) h t))) (set_half (ct_dir t) h t)) s n) as [h2|]; [|reflexivity].
      cbn [option_map fst snd]. now rewrite set_half_rn.
    Qed.
    Lemma nums_rn (t : ctape val Sym) : nums (rn_tape t) = map rn_n (nums t).
    Proof. unfold nums, rn_tape. cbn [ct_l ct_r]. rewrite map_app, !map_rev, !map_map. reflexivity. Qed.
    Lemma blks_rn (ss : list Sym) : forall ns, blks ss (map rn_n ns) = map rn_b (blks ss ns).
    Proof. induction ss as [|s ss IH]; intros [|n ns]; try reflexivity. cbn [map blks]. now rewrite IH. Qed.
    Lemma mk_rn sh ns : mk (Sym:=Sym) sh (map rn_n ns) = rn_tape (mk sh ns).
    Proof. destruct sh as [[d ls] rs]. unfold mk, rn_tape. cbn [ct_dir ct_l ct_r]. rewrite firstn_map, skipn_map, <- !map_rev, !blks_rn. reflexivity. Qed.
    Lemma strip_rn {St} (q : St) (t : ctape val Sym) : strip_config v_is1 q (rn_tape t) = strip_config v_is1 q t.
    Proof.
      unfold strip_config. cbn [rn_tape ct_dir ct_l ct_r].
      assert (G : forall h : list (blk val Sym), strip_half v_is1 (map rn_b h) = strip_half v_is1 h).
      { intros h. unfold strip_half. assert (E : removelast (map rn_b h) = map rn_b (removelast h)).
        { induction h as [|b [|b' h] IH]; try reflexivity. change (removelast (map rn_b (b :: b' :: h))) with (rn_b b :: removelast (map rn_b (b' :: h))).
          rewrite IH. reflexivity. }
        rewrite E, map_map. apply map_ext. intros [s [n|]]; cbn [rn_b k_sym k_num option_map]; [now rewrite v_is1_rn|reflexivity]. }
      now rewrite !G.
    Qed.
  End Tape.

  (** ** the simulator inside a proof, and the parts of a rule *)
  Section Machine.
    Context {Sym St : Type} (M : machine Sym St).
    Definition rn_sim (s : sim val Sym St) : sim val Sym St :=
      Sim (rn_tape (s_tape s)) (s_state s) (s_dir s) (s_steps s) (s_loops s) (s_op s) (s_details s) (s_seen s) (s_inf s) (s_rules s).
    Lemma nsim_move_rn s : nsim_move vops M (rn_sim s) = option_map rn_sim (nsim_move vops M s).
    Proof.
      unfold nsim_move. cbn [rn_sim s_tape s_state s_dir s_steps s_loops s_seen s_inf s_rules]. rewrite ct_top_rn.
      destruct (ct_top (s_tape s)) as [b|]; [|reflexivity]. cbn [option_map rn_b k_sym].
      destruct (m_trans M (k_sym b) (s_state s) (s_dir s)) as [t|]; [|reflexivity].
      destruct (cond_eqb (t_cond t) INF_REPEAT); [reflexivity|].
      destruct (m_st_eqb M (t_state t) (s_state s) && dir_eqb (t_dir t) (s_dir s) && cond_eqb (t_cond t) RUNNING).
      - rewrite chain_rn. destruct (apply_chain_move vops (m_sym_eqb M) (s_tape s) (t_sym t)) as [[tape [n|]]|]; reflexivity.
      - destruct (negb (cond_eqb (t_cond t) GAVE_UP)); [|reflexivity].
        rewrite single_rn. destruct (apply_single_move vops (m_sym_eqb M) (s_tape s) (t_sym t) (t_dir t)); reflexivity.
    Qed.
    Definition rn_pr (r : pr (ndict Q)) : pr (ndict Q) := match r with POk m => POk (rn_d m) | x => x end.
    Lemma num_le0_rn n : num_le0 (rn_n n) = num_le0 n.
    Proof. destruct n as [v|]; [|reflexivity]. cbn [option_map num_le0]. now rewrite v_min_val_rn. Qed.
    Lemma update_min_rn ns : forall m, update_min (map rn_n ns) (rn_d m) = rn_pr (update_min ns m).
    Proof.
      induction ns as [|[v|] ns IH]; intros m; [reflexivity| |exact (IH m)]. cbn [map option_map update_min].
      rewrite v_variables_rn, nodup_rn. destruct (nodup Nat.eq_dec (v_variables v)) as [|x [|y l]]; cbn [map]; [apply IH| |reflexivity].
      rewrite nd_get_rn, v_min_val_rn. destruct (nd_get x m) as [a|]; [|reflexivity]. destruct (v_min_val v) as [b|]; [|reflexivity].
      rewrite nd_set_rn. apply IH.
    Qed.
    Lemma ngen_loop_rn d : forall s m, ngen_loop M d (rn_sim s) (rn_d m) =
      match ngen_loop M d s m with POk (s, m) => POk (rn_sim s, rn_d m) | PFail => PFail | PExn => PExn end.
    Proof.
      induction d as [|d IH]; intros s m; [reflexivity|]. cbn [ngen_loop].
      change (s_tape (rn_sim s)) with (rn_tape (s_tape s)). change (loop_inc (rn_sim s)) with (rn_sim (loop_inc s)). rewrite ct_top_rn, nsim_move_rn.
      destruct (ct_top (s_tape s)) as [b|]; [|reflexivity]. cbn [option_map rn_b k_num]. rewrite num_le0_rn. destruct (num_le0 (k_num b)); [reflexivity|].
      destruct (nsim_move vops M (loop_inc s)) as [s'|]; [|reflexivity]. cbn [option_map].
      change (s_op (rn_sim s')) with (s_op s'). change (s_tape (rn_sim s')) with (rn_tape (s_tape s')).
      destruct (negb (cond_eqb (s_op s') RUNNING)); [reflexivity|]. rewrite nums_rn, update_min_rn.
      destruct (update_min (nums (s_tape s')) m) as [| |m']; [reflexivity|reflexivity|]. cbn [rn_pr]. apply IH.
    Qed.
    Lemma diff_num_rn a b : diff_num (rn_n a, rn_n b) = rn_n (diff_num (a, b)).
    Proof.
      destruct a as [a|], b as [b|]; try reflexivity. cbn [option_map diff_num]. rewrite v_sub_rn.
      destruct (v_sub a b) as [q|e]; [reflexivity|]. cbn [rn_v]. rewrite e_is_const_rn. destruct (e_is_const e); reflexivity.
    Qed.
    Lemma diffs_rn a : forall b, map diff_num (combine (map rn_n a) (map rn_n b)) = map rn_n (map diff_num (combine a b)).
    Proof. induction a as [|x a IH]; intros [|y b]; try reflexivity. cbn [map combine]. now rewrite diff_num_rn, IH. Qed.
    Lemma num_scalar_rn n : num_scalar (rn_n n) = num_scalar n.
    Proof. destruct n as [[q|e]|]; reflexivity. Qed.
    Lemma tighten_rn m n : tighten (rn_d m) (rn_n n) = option_map (fun vs => (rn_n (fst vs), rn_s (snd vs))) (tighten m n).
    Proof.
      destruct n as [[q|e]|]; try reflexivity. cbn [option_map rn_v tighten]. rewrite variable_restricted_rn.
      destruct (variable_restricted e) as [x|]; [|reflexivity]. cbn [option_map]. rewrite nd_get_rn. destruct (nd_get x m) as [a|]; [|reflexivity].
      change (VE (var_expr (f x))) with (rn_v (VE (var_expr x))).
      assert (E : v_add (v_sub (rn_v (VE (var_expr x))) (VS a)) (VS 1) = rn_v (v_add (v_sub (VE (var_expr x)) (VS a)) (VS 1))).
      { change (VS a) with (rn_v (VS a)) at 1. rewrite v_sub_rn. change (VS 1) with (rn_v (VS 1)) at 1. apply v_add_rn. }
      rewrite E. change [(f x, rn_v (v_add (v_sub (VE (var_expr x)) (VS a)) (VS 1)))] with (rn_s [(x, v_add (v_sub (VE (var_expr x)) (VS a)) (VS 1))]).
      rewrite e_subst_rn. destruct (e_subst e _) as [v|]; reflexivity.
    Qed.
    Lemma gen_entry_rn m n : gen_entry (rn_d m) (rn_n n) =
      option_map (fun e => (option_map f (fst (fst e)), snd (fst e), rn_s (snd e))) (gen_entry m n).
    Proof.
      destruct n as [[q|e]|]; try reflexivity. cbn [option_map rn_v gen_entry]. rewrite variable_restricted_rn.
      destruct (variable_restricted e) as [x|]; [|reflexivity]. cbn [option_map]. rewrite nd_get_rn. destruct (nd_get x m) as [a|]; [|reflexivity].
      cbn [option_map fst snd rn_s map rn_e e_const]. repeat f_equal; apply e_add_rn.
    Qed.
    Lemma map_opt_map {A B C} (g : B -> option C) (h : A -> B) l : map_opt g (map h l) = map_opt (fun a => g (h a)) l.
    Proof. induction l as [|a l IH]; [reflexivity|]. cbn [map map_opt]. now rewrite IH. Qed.
    Lemma map_opt_rn {A B} (g g' : A -> option B) (h : B -> B) l : (forall a, g' a = option_map h (g a)) ->
      map_opt g' l = option_map (map h) (map_opt g l).
    Proof.
      intros E. induction l as [|a l IH]; [reflexivity|]. cbn [map_opt]. rewrite E, IH.
      destruct (g a); [|reflexivity]. cbn [option_map]. destruct (map_opt g l); reflexivity.
    Qed.
    Lemma concat_rn l : concat (map rn_s l) = rn_s (concat l).
    Proof. unfold rn_s. rewrite concat_map. reflexivity. Qed.
    Lemma subst_list_rn s l : map_opt (inf_opt (fun v => v_subst v (rn_s s))) (map rn_n l) = option_map (map rn_n) (map_opt (inf_opt (fun v => v_subst v s)) l).
    Proof.
      rewrite map_opt_map. apply map_opt_rn. intros [v|]; [|reflexivity]. cbn [option_map inf_opt]. rewrite v_subst_rn.
      destruct (v_subst v s); reflexivity.
    Qed.
    Definition rn_rule (r : nrule) : nrule :=
      match r with
      | NDiff i d => NDiff (map rn_n i) (map rn_n d)
      | NGen vars mins result inf => NGen (map (option_map f) vars) mins (map rn_n result) inf
      end.
    Lemma nmake_diff_rn i d m : nmake_diff (map rn_n i) (map rn_n d) (rn_d m) = option_map rn_rule (nmake_diff i d m).
    Proof.
      unfold nmake_diff. rewrite map_opt_map, (map_opt_rn (tighten m) _ (fun vs => (rn_n (fst vs), rn_s (snd vs))) i (tighten_rn m)).
      destruct (map_opt (tighten m) i) as [l|]; [|reflexivity]. cbn [option_map]. rewrite !map_map. cbn [fst snd].
      rewrite <- (map_map snd rn_s), concat_rn, subst_list_rn.
      destruct (map_opt _ d) as [d'|]; [|reflexivity]. cbn [option_map rn_rule]. now rewrite map_map.
    Qed.
    Lemma linear_shape_rn x r : linear_shape (option_map f x, rn_n r) = linear_shape (x, r).
    Proof.
      destruct x as [x|]; [|reflexivity]. destruct r as [[q|e]|]; try reflexivity. cbn [option_map rn_v linear_shape].
      change (VE (rn_e e)) with (rn_v (VE e)). rewrite v_variables_rn, nodup_rn.
      destruct (nodup Nat.eq_dec (v_variables (VE e))) as [|y [|? ?]]; try reflexivity. cbn [map]. rewrite f_eqb, as_strictly_linear_rn.
      destruct (as_strictly_linear e); reflexivity.
    Qed.
    Lemma gen_infinite_rn x r : gen_infinite (option_map f x, rn_n r) = gen_infinite (x, r).
    Proof.
      destruct x as [x|]; [|reflexivity]. destruct r as [v|]; [|reflexivity]. cbn [option_map gen_infinite].
      change (VE (var_expr (f x))) with (rn_v (VE (var_expr x))). apply always_ge_rn.
    Qed.
    Lemma combine_map2 {A B A' B'} (g : A -> A') (h : B -> B') l : forall l', combine (map g l) (map h l') = map (fun ab => (g (fst ab), h (snd ab))) (combine l l').
    Proof. induction l as [|a l IH]; intros [|b l']; try reflexivity. cbn [map combine fst snd]. now rewrite IH. Qed.
    Lemma vars_valid_rn vars n : vars_valid (map (option_map f) vars) (rn_n n) = vars_valid vars n.
    Proof.
      destruct n as [v|]; [|reflexivity]. cbn [option_map vars_valid]. rewrite v_variables_rn, forallb_map.
      induction (v_variables v) as [|x l IH]; [reflexivity|]. cbn [forallb]. rewrite IH. f_equal. rewrite existsb_map.
      clear IH. induction vars as [|[y|] vars IH]; [reflexivity| |]; cbn [existsb option_map]; rewrite ?f_eqb, IH; reflexivity.
    Qed.
    Lemma nmake_gen_rn i d m : nmake_gen (map rn_n i) (map rn_n d) (rn_d m) = option_map rn_rule (nmake_gen i d m).
    Proof.
      unfold nmake_gen. rewrite map_opt_map, (map_opt_rn (gen_entry m) _ (fun e => (option_map f (fst (fst e)), snd (fst e), rn_s (snd e))) i (gen_entry_rn m)).
      destruct (map_opt (gen_entry m) i) as [l|]; [|reflexivity]. cbn [option_map]. rewrite !map_map. cbn [fst snd].
      rewrite <- (map_map snd rn_s), concat_rn, subst_list_rn. rewrite <- (map_map (fun e => fst (fst e)) (option_map f)).
      destruct (map_opt _ d) as [d'|]; [|reflexivity]. cbn [option_map]. rewrite combine_map2, !forallb_map.
      assert (E1 : forall p : (option nat * option val) -> bool, (forall x r, p (option_map f x, rn_n r) = p (x, r)) ->
        forall l, forallb (fun a => p (option_map f (fst a), rn_n (snd a))) l = forallb p l).
      { intros p Hp l0. induction l0 as [|[x r] l0 IH]; [reflexivity|]. cbn [forallb fst snd]. now rewrite Hp, IH. }
      rewrite (E1 _ linear_shape_rn), (E1 _ gen_infinite_rn).
      assert (E2 : forall vs l, forallb (fun a => vars_valid (map (option_map f) vs) (rn_n a)) l = forallb (vars_valid vs) l).
      { intros vs l0. induction l0 as [|x l0 IH]; [reflexivity|]. cbn [forallb]. now rewrite vars_valid_rn, IH. }
      rewrite E2. destruct (forallb linear_shape _); [reflexivity|]. destruct (forallb (vars_valid _) d'); reflexivity.
    Qed.
  End Machine.
End Rename.
