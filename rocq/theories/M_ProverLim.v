(** * Model of [Code/Macro/Proof_System.py] with the option [--limited-rules]

    The other options are as in M_Prover.  With this option the prover records
    which blocks of the tape a proof touches and keeps only these blocks in a
    rule that changes counts by constants.  Such a rule is applied to every tape
    whose blocks next to the head look alike, whatever lies further out. *)
Require Import ZArith List Lia Bool Arith QArith Qround.
From Verif Require Import Spec_TM M_Turing_Machine M_Expr M_Tape M_Simulator M_Settings M_Prover.
Import ListNotations.
Open Scope Z_scope.

(** ** Blocks with identifiers

    Tape.py lines 24-29 give every block a field [id], [None] for the blocks the
    simulator creates (lines 146 and 166) and kept when the count of the block
    changes.  A block with an [id] is a block of the symbol [(symbol, id)]; the
    simulator compares, reads and evaluates only [symbol]. *)
Definition id_trans {Sym St} (t : transition Sym St) : transition (Sym * option nat) St :=
  Trans (t_cond t) (t_details t) (t_sym t, None) (t_state t) (t_dir t) (t_steps t) (t_seen t).
Definition id_machine {Sym St} (M : machine Sym St) : machine (Sym * option nat) St :=
  Machine (fun a q d => option_map id_trans (m_trans M (fst a) q d))
          (fun a b => m_sym_eqb M (fst a) (fst b)) (m_st_eqb M)
          (m_init_sym M, None) (m_init_st M) (fun a => m_eval_sym M (fst a)) (m_eval_st M).

(** Proof_System.py lines 750-757: the block next to the head gets 1 *)
Fixpoint id_half {N Sym} (i : nat) (h : list (blk N Sym)) : list (blk N (Sym * option nat)) :=
  match h with
  | [] => []
  | b :: h => Blk (k_sym b, Some i) (k_num b) :: id_half (S i) h
  end.
Definition id_tape {N Sym} (t : ctape N Sym) : ctape N (Sym * option nat) :=
  CTape (ct_dir t) (id_half 1 (ct_l t)) (id_half 1 (ct_r t)).
(** forget the identifiers *)
Definition un_blk {N Sym A} (b : blk N (Sym * A)) : blk N Sym := Blk (fst (k_sym b)) (k_num b).
Definition un_tape {N Sym A} (t : ctape N (Sym * A)) : ctape N Sym :=
  CTape (ct_dir t) (map un_blk (ct_l t)) (map un_blk (ct_r t)).
Definition un_sim {N Sym A St} (s : sim N (Sym * A) St) : sim N Sym St :=
  Sim (un_tape (s_tape s)) (s_state s) (s_dir s) (s_steps s) (s_loops s) (s_op s)
      (s_details s) (s_seen s) (s_inf s) (s_rules s).

(** [max_offset_touched], lines 773, 797-811 *)
Definition touched := (nat * nat)%type.
Definition touch (mo : touched) (d : dir) (i : option nat) : touched :=
  match i with
  | None => mo
  | Some i => match d with
              | L => (Nat.max (fst mo) i, snd mo)
              | R => (fst mo, Nat.max (snd mo) i)
              end
  end.

(** Python [h[-d:]] and [h[:-d]] for lists that end next to the head: with
    [d = 0] these are the whole list and the empty list *)
Definition near {A} (d : nat) (h : list A) : list A := match d with 0%nat => h | _ => firstn d h end.
Definition far {A} (d : nat) (h : list A) : list A := match d with 0%nat => [] | _ => skipn d h end.

(** lines 365-392, class Limited_Diff_Rule; the counts are listed bottom first,
    left half before right half, as in [RDiff] *)
Record lrule := LRule {
  lr_init : list (option val);
  lr_diff : list (option val);
  lr_steps : val;
  lr_seen : ndict val;
  lr_left : nat;
  lr_right : nat }.

Section Limited.
  Context {Sym St : Type} (M : machine Sym St) (max_prover_configs max_num_reps : nat).
  (** line 656: [list(set(...) & set(...))] lists the rules in an arbitrary order *)
  Variable order : forall A, list A -> list A.

  (** lines 776-832 *)
  Fixpoint lim_loop (delta : nat) (s : sim val (Sym * option nat) St) (m : ndict Q) (mo : touched)
    : pr (sim val (Sym * option nat) St * ndict Q * touched) :=
    match delta with
    | 0%nat => POk (s, m, mo)
    | S delta =>
      match ct_top (s_tape s) with
      | None => PExn
      | Some b =>
        if num_le0 (k_num b) then PFail
        else
          let mo := touch mo (ct_dir (s_tape s)) (snd (k_sym b)) in
          match sim_move vops (id_machine M) (loop_inc s) with
          | None => PExn
          | Some s =>
            let back := opp (ct_dir (s_tape s)) in
            match half back (s_tape s) with
            | [] => PExn
            | w :: _ =>
              let mo := touch mo back (snd (k_sym w)) in
              if negb (cond_eqb (s_op s) RUNNING) then PFail
              else match update_min (nums (s_tape s)) m with
                   | PExn => PExn
                   | PFail => PFail
                   | POk m => lim_loop delta s m mo
                   end
            end
          end
      end
    end.

  Definition lim_sim0 (t : ctape Z Sym) (q : St) (inits : list (option val))
    : sim val (Sym * option nat) St :=
    Sim (id_tape (mk (shape t) inits)) q (ct_dir t) (VE (Expr [] 0%Q)) 0 RUNNING [] (Some []) None 0.

  (** lines 991-995: the last [dl] counts of the left half, then the last [dr] of
      the right half.  [nl] is the number of blocks of the left half. *)
  Definition cut {A} (nl dl dr : nat) (ns : list A) : list A :=
    rev (near dl (rev (firstn nl ns))) ++ rev (near dr (rev (skipn nl ns))).

  (** lines 712-1015; a rule that is not a difference rule is an ordinary
      General_Rule *)
  Definition prove_lim (next : nat) (t : ctape Z Sym) (q : St) (delta : nat)
    : option (nat * option (lrule + rule)) :=
    match gen_nums next (nums t) with
    | None => None
    | Some (next, inits, m) =>
      match lim_loop delta (lim_sim0 t q inits) m (0%nat, 0%nat) with
      | PExn => None
      | PFail => Some (next, None)
      | POk (s, m, (dl, dr)) =>
        let s := un_sim s in
        if negb (key_eqb M (strip_config v_is1 (s_state s) (s_tape s)) (strip_config z_is1 q t))
        then Some (next, None)
        else
          let finals := nums (s_tape s) in
          let diffs := map diff_num (combine finals inits) in
          match s_seen s with
          | None => None
          | Some seen =>
            if forallb num_scalar diffs then
              match make_diff inits diffs m s seen with
              | Some (RDiff ti td steps seen) =>
                let nl := length (ct_l t) in
                Some (next, Some (inl (LRule (cut nl dl dr ti) (cut nl dl dr td) steps seen dl dr)))
              | _ => None
              end
            else
              match make_gen inits finals m s seen with
              | Some r => Some (next, Some (inr r))
              | None => None
              end
          end
      end
    end.

  (** lines 1036-1065 *)
  Definition apply_lim (next : nat) (r : lrule) (t : ctape Z Sym)
    : option (nat * option (prover_result Z Sym)) :=
    let limited := CTape (ct_dir t) (near (lr_left r) (ct_l t)) (near (lr_right r) (ct_r t)) in
    match apply_diff_rule next (lr_init r) (lr_diff r) (lr_steps r) (lr_seen r) limited with
    | Some (next, Some (PApply t' n seen)) =>
      Some (next, Some (PApply (CTape (ct_dir t') (ct_l t' ++ far (lr_left r) (ct_l t))
                                      (ct_r t' ++ far (lr_right r) (ct_r t))) n seen))
    | x => x
    end.

  (** ** The dictionary of rules

      Lines 688-705 enter a limited rule under a key for the left half and under
      a key for the right half; lines 641-656 collect the rules found under both
      kinds of key.  The model keeps every rule with its two keys.  [None] stands
      for the marker [Repeated_Symbol(0, -1)] below the bottom block. *)
  Definition lkey := (St * dir * list (option (Sym * bool)) * nat)%type.
  Definition lkey_of (q : St) (d : dir) (h : list (Sym * bool)) (i : nat) : lkey :=
    (q, d, near i (map Some h ++ [None]), i).
  Fixpoint ohalf_eqb (a b : list (option (Sym * bool))) : bool :=
    match a, b with
    | [], [] => true
    | None :: a, None :: b => ohalf_eqb a b
    | Some (s, x) :: a, Some (s', y) :: b => m_sym_eqb M s s' && Bool.eqb x y && ohalf_eqb a b
    | _, _ => false
    end.
  Definition lkey_eqb (a b : lkey) : bool :=
    let '(q, d, h, i) := a in
    let '(q', d', h', i') := b in
    m_st_eqb M q q' && dir_eqb d d' && ohalf_eqb h h' && Nat.eqb i i'.
  (** lines 645 and 651: the keys for [i] from 1 *)
  Definition lkeys (q : St) (d : dir) (h : list (Sym * bool)) : list lkey :=
    map (lkey_of q d h) (seq 1 (S (length h))).

  Record lprover := LProver {
    lp_rules : list (lkey * lkey * lrule);
    lp_past : list (key (Sym := Sym) (St := St) * past_config);
    lp_next : nat }.
  Definition lprover_init (next : nat) : lprover := LProver [] [] next.

  (** lines 641-656 *)
  Definition lim_found (p : lprover) (k : key (Sym := Sym) (St := St)) : list lrule :=
    let '(q, d, l, r) := k in
    map snd (filter (fun e => existsb (lkey_eqb (fst (fst e))) (lkeys q d l) &&
                              existsb (lkey_eqb (snd (fst e))) (lkeys q d r)) (lp_rules p)).

  (** lines 658-661: the first rule that applies *)
  Fixpoint try_lim (next : nat) (rs : list lrule) (t : ctape Z Sym)
    : option (nat * option (prover_result Z Sym)) :=
    match rs with
    | [] => Some (next, None)
    | r :: rs => match apply_lim next r t with
                 | None => None
                 | Some (next, Some result) => Some (next, Some result)
                 | Some (next, None) => try_lim next rs t
                 end
    end.

  (** lines 683-710.  A General_Rule is stored under a key that is never looked
      up with this option. *)
  Definition add_lim (p : lprover) (k : key (Sym := Sym) (St := St)) (r : lrule + rule) : lprover :=
    let saved := match kget M k (lp_past p) with Some s => s | None => Past None None end in
    let '(q, d, hl, hr) := k in
    LProver (match r with
             | inl r => lp_rules p ++ [(lkey_of q d hl (lr_left r), lkey_of q d hr (lr_right r), r)]
             | inr _ => lp_rules p
             end) [(k, Past None (last_delta saved))] (lp_next p).

  Definition apply_new (next : nat) (r : lrule + rule) (t : ctape Z Sym) :=
    match r with
    | inl r => apply_lim next r t
    | inr r => apply_rule max_num_reps next r t
    end.

  (** lines 572-620 *)
  Definition log_and_apply_lim (p : lprover) (t : ctape Z Sym) (q : St) (loop : nat)
    : option (lprover * prover_result Z Sym) :=
    let k := strip_config z_is1 q t in
    match try_lim (lp_next p) (order _ (lim_found p k)) t with
    | None => None
    | Some (next, Some result) => Some (LProver (lp_rules p) [] next, result)
    | Some (next, None) =>
      let pc := match kget M k (lp_past p) with Some c => c | None => Past None None end in
      let '(prove, pc') := log_config pc loop in
      let p := LProver (lp_rules p) (kset M k pc' (lp_past p)) next in
      if prove then
        let delta := match last_loop pc' with Some l => (loop - l)%nat | None => 0%nat end in
        match prove_lim (lp_next p) t q delta with
        | None => None
        | Some (next, None) => Some (LProver (lp_rules p) (lp_past p) next, PNothing)
        | Some (next, Some r) =>
          let p := add_lim (LProver (lp_rules p) (lp_past p) next) k r in
          match apply_new next r t with
          | None => None
          | Some (next, result) =>
            Some (LProver (lp_rules p) (lp_past p) next,
                  match result with Some x => x | None => PNothing end)
          end
        end
      else if Nat.ltb max_prover_configs (length (lp_past p)) then
        Some (LProver (lp_rules p) [] (lp_next p), PNothing)
      else Some (p, PNothing)
    end.
End Limited.

(** as [run_prover] (M_ProverRun) with [--limited-rules] *)
Definition run_limited (order : forall A, list A -> list A) (tab : ttable) (g : setting)
           (mc mr next : nat) (d : driver) : option report :=
  with_machine tab g (fun _ _ M =>
    match drive M (log_and_apply_lim M mc mr order) d (lprover_init next, sim_init zops M) with
    | Some (_, s) => Some (report_of M s)
    | None => None
    end).
