(** * Model of [Code/CTL1.py] - [Code/CTL4.py]

    The four files share one loop: a table maps (state, direction) to sets of symbols for the
    two sides of the tape; each iteration looks up the transition for every symbol that may be
    in front, adds what the tape may look like afterwards, and joins the old table.  They
    differ in the initial table, in the symbols looked at and in what is added.  A set is a
    list without order; unused slots stay empty.  Verbose output is not modelled; [end_time]
    is None in test_CTL. *)
Require Import ZArith List Lia Bool Arith.
From Verif Require Import Spec_TM M_Turing_Machine M_Tape M_Simulator M_Settings.
Import ListNotations.

Inductive slot := SA | SB | SC.
Record sets (Sym : Type) := Sets { set_a : list Sym; set_b : list Sym; set_c : list Sym }.
Arguments Sets {Sym}. Arguments set_a {Sym}. Arguments set_b {Sym}. Arguments set_c {Sym}.
Definition get {Sym} (s : slot) (x : sets Sym) : list Sym :=
  match s with SA => set_a x | SB => set_b x | SC => set_c x end.
Record row (Sym : Type) := Row { row_l : sets Sym; row_r : sets Sym }.
Arguments Row {Sym}. Arguments row_l {Sym}. Arguments row_r {Sym}.
Definition side {Sym} (d : dir) (r : row Sym) : sets Sym := match d with L => row_l r | R => row_r r end.

Definition opp (d : dir) : dir := match d with L => R | R => L end.

Section CTL.
  Context {Sym St : Type}.
  Variable M : machine Sym St.
  Notation tabl := (list (St * dir * row Sym)).

  (** set.add and set.update *)
  Definition set_add (l : list Sym) (x : Sym) : list Sym :=
    if existsb (m_sym_eqb M x) l then l else l ++ [x].
  Definition set_update (l xs : list Sym) : list Sym := fold_left set_add xs l.
  Definition set_sub (a b : list Sym) : bool := forallb (fun x => existsb (m_sym_eqb M x) b) a.

  Definition no_sets : sets Sym := Sets [] [] [].
  Definition put_set (s : slot) (xs : list Sym) (x : sets Sym) : sets Sym :=
    match s with
    | SA => Sets (set_update (set_a x) xs) (set_b x) (set_c x)
    | SB => Sets (set_a x) (set_update (set_b x) xs) (set_c x)
    | SC => Sets (set_a x) (set_b x) (set_update (set_c x) xs)
    end.
  Definition put_row (d : dir) (s : slot) (xs : list Sym) (r : row Sym) : row Sym :=
    match d with
    | L => Row (put_set s xs (row_l r)) (row_r r)
    | R => Row (row_l r) (put_set s xs (row_r r))
    end.
  Definition key_eqb (a b : St * dir) : bool :=
    m_st_eqb M (fst a) (fst b) && dir_eqb (snd a) (snd b).

  Fixpoint find_row (k : St * dir) (t : tabl) : option (row Sym) :=
    match t with
    | [] => None
    | (k', r) :: t => if key_eqb k k' then Some r else find_row k t
    end.
  (** CTL_Table.__getitem__ (a missing key gets empty sets) and update of one set *)
  Fixpoint tab_update (k : St * dir) (d : dir) (s : slot) (xs : list Sym) (t : tabl) : tabl :=
    match t with
    | [] => [(k, put_row d s xs (Row no_sets no_sets))]
    | (k', r) :: t => if key_eqb k k' then (k', put_row d s xs r) :: t
                      else (k', r) :: tab_update k d s xs t
    end.

  Definition update := (dir * slot * list Sym)%type.
  Definition tab_updates (k : St * dir) (us : list update) (t : tabl) : tabl :=
    fold_left (fun t u => let '(d, s, xs) := u in tab_update k d s xs t) us t.

  Definition all_slots : list (dir * slot) := [(L, SA); (L, SB); (L, SC); (R, SA); (R, SB); (R, SC)].
  Definition row_updates (r : row Sym) : list update :=
    map (fun ds => (fst ds, snd ds, get (snd ds) (side (fst ds) r))) all_slots.

  (** "Make new_table complete by unioning it with table" *)
  Definition tab_union (new table : tabl) : tabl :=
    fold_left (fun t kr => tab_updates (fst kr) (row_updates (snd kr)) t) table new.

  (** dict and set equality *)
  Definition row_sub (a b : row Sym) : bool :=
    forallb (fun ds => set_sub (get (snd ds) (side (fst ds) a)) (get (snd ds) (side (fst ds) b))) all_slots.
  Definition tab_sub (a b : tabl) : bool :=
    forallb (fun kr => match find_row (fst kr) b with Some r => row_sub (snd kr) r | None => false end) a.
  Definition tab_eqb (a b : tabl) : bool := tab_sub a b && tab_sub b a.

  (** One of the four algorithms: the symbols that may be in front, each with the name of the
      loop that handles it ([true]: the first loop), and what that loop adds to the entry of
      the next state. *)
  Record algorithm := Algorithm {
    alg_looks : row Sym -> dir -> list (bool * Sym);
    alg_adds : row Sym -> dir -> bool -> transition Sym St -> list update;
    alg_counts : bool }.   (* is num_iters incremented? *)
  Variable A : algorithm.

  (** the loop over one entry; [None]: exception, [Some None]: return False *)
  Fixpoint look_all (q : St) (d : dir) (r : row Sym) (ls : list (bool * Sym)) (new : tabl)
    : option (option tabl) :=
    match ls with
    | [] => Some (Some new)
    | (b, x) :: ls =>
      match m_trans M x q d with
      | None => None
      | Some t =>
        if cond_eqb (t_cond t) RUNNING then
          look_all q d r ls (tab_updates (t_state t, t_dir t) (alg_adds A r d b t) new)
        else Some None
      end
    end.
  Fixpoint sweep (table new : tabl) : option (option tabl) :=
    match table with
    | [] => Some (Some new)
    | ((q, d), r) :: table =>
      match look_all q d r (alg_looks A r d) new with
      | Some (Some new) => sweep table new
      | o => o
      end
    end.

  (** the main loop: success and num_iters; [None]: exception or out of fuel *)
  Fixpoint ctl_loop (fuel : nat) (table : option tabl) (new : tabl) (iters : nat) : option (bool * nat) :=
    if match table with Some t => tab_eqb t new | None => false end then Some (true, iters)
    else
      match fuel with
      | O => None
      | S fuel =>
        match sweep new [] with
        | None => None
        | Some None => Some (false, iters)
        | Some (Some next) => ctl_loop fuel (Some new) (tab_union next new) (if alg_counts A then S iters else iters)
        end
      end.
End CTL.
Arguments Algorithm {Sym St}.

Section Algorithms.
  Context {Sym St : Type}.
  Variable M : machine Sym St.
  Notation i0 := (m_init_sym M).

  (** CTL1.py lines 48-76 *)
  Definition ctl1 : @algorithm Sym St :=
    Algorithm
      (fun r d => map (pair true) (set_a (side d r)) ++ [(false, i0)])
      (fun r d first t =>
         if first then [(L, SA, set_a (row_l r)); (R, SA, set_a (row_r r)); (opp (t_dir t), SA, [t_sym t])]
         else [(opp d, SA, set_a (side (opp d) r)); (opp (t_dir t), SA, [t_sym t])])
      true.

  Definition both2 (r : row Sym) : list (@update Sym) :=
    [(L, SA, set_a (row_l r)); (L, SB, set_b (row_l r)); (R, SA, set_a (row_r r)); (R, SB, set_b (row_r r))].
  (** CTL2.py lines 53-84 *)
  Definition ctl2 : @algorithm Sym St :=
    Algorithm
      (fun r d => map (pair true) (set_a (side d r)) ++ map (pair false) (set_b (side d r)))
      (fun r d first t =>
         if first then both2 r ++ [(opp (t_dir t), SA, [t_sym t])]
         else [(opp d, SA, set_a (side (opp d) r)); (opp d, SB, set_b (side (opp d) r))] ++
              if dir_eqb (t_dir t) d then [(opp (t_dir t), SA, [t_sym t]); (t_dir t, SB, [i0])]
              else [(opp (t_dir t), SB, [t_sym t])])
      true.

  (** CTL3.py lines 36-60 *)
  Definition ctl3 : @algorithm Sym St :=
    Algorithm
      (fun r d => map (pair true) (set_a (side d r)))
      (fun r d _ t =>
         let nd := t_dir t in
         if negb (dir_eqb nd d) then
           [(nd, SA, set_a (side nd r)); (nd, SB, set_b (side nd r));
            (opp nd, SA, [t_sym t]); (opp nd, SB, set_b (side (opp nd) r))]
         else
           [(nd, SA, set_b (side nd r)); (nd, SA, [i0]); (nd, SB, set_b (side nd r));
            (opp nd, SA, [t_sym t]); (opp nd, SB, set_a (side (opp nd) r)); (opp nd, SB, set_b (side (opp nd) r))])
      false.

  (** CTL4.py lines 37-73 *)
  Definition ctl4 : @algorithm Sym St :=
    Algorithm
      (fun r d => map (pair true) (set_a (side d r)) ++ map (pair false) (set_b (side d r)))
      (fun r d first t =>
         let nd := t_dir t in
         if first then
           [(L, SA, set_a (row_l r)); (L, SB, set_b (row_l r)); (L, SC, set_c (row_l r));
            (R, SA, set_a (row_r r)); (R, SB, set_b (row_r r)); (R, SC, set_c (row_r r));
            (opp nd, SA, [t_sym t])]
         else
           [(opp d, SA, set_a (side (opp d) r)); (opp d, SB, set_b (side (opp d) r)); (opp d, SC, set_c (side (opp d) r))] ++
           if dir_eqb nd d then
             [(opp nd, SA, [t_sym t]); (nd, SB, set_c (side nd r)); (nd, SC, [i0])]
           else
             [(opp nd, SB, [t_sym t]); (opp nd, SC, set_c (side (opp nd) r))])
      false.

  (** ** The initial sets from a run-length half tape.  The model's half tapes start at the
      head, Python's end there: Python's [tape[d][i]] is [pyix h i] and [tape[d][-i]] is
      element [i-1]. *)
  Notation half := (list (blk Z Sym)).
  Definition pyix (h : half) (i : nat) : option (blk Z Sym) := nth_error (rev h) i.
  (** [num > k]; infinity is greater *)
  Definition more (k : Z) (b : blk Z Sym) : bool := match k_num b with Some z => (k <? z)%Z | None => true end.
  Definition union (l xs : list Sym) := set_update M l xs.

  (** CTL1.py lines 106-109 and 29-34: comparing a number with the string "Inf" filters
      nothing *)
  Definition init1 (h : half) : sets Sym := Sets (union [] (map k_sym h)) [] [].

  (** CTL2.py lines 111-116 and 29-36 *)
  Definition init2 (h : half) : sets Sym :=
    let l := map k_sym (removelast h) in
    let l := match pyix h 1 with
             | Some b => if (2 <=? length h)%nat && more 1 b then l ++ [k_sym b] else l
             | None => l
             end in
    Sets (union [] (removelast l))
         (match l with [] => [i0] | _ => [last l i0] end) [].

  (** CTL3.py lines 93-101: the comparison with the string "Inf" is always true *)
  Definition init3 (h : half) : option (sets Sym) :=
    match h with
    | [] => None
    | top :: _ =>
      let b := union [] (map k_sym (tl (removelast h))) in
      Some (Sets [k_sym top] (if more 1 top then union b [k_sym top] else b) [])
    end.

  (** CTL4.py lines 102-131; an index out of range is an exception *)
  Definition init4 (h : half) : option (sets Sym) :=
    let n := length h in
    let a := union [] (map k_sym (rev (skipn 2 (rev h)))) in
    match pyix h 0 with
    | None => None
    | Some p0 =>
      match pyix h 1 with
      | None => Some (Sets a [k_sym p0] [k_sym p0])   (* only infinitely many blanks *)
      | Some p1 =>
        if (3 <=? n)%nat || more 1 p1 then
          if more 1 p1 then
            let a := match pyix h 2 with Some p2 => union a [k_sym p2] | None => a end in
            match nth_error h 1 with               (* tape[d][-2] *)
            | Some b => Some (Sets (if more 2 b then union a [k_sym p1] else a) [k_sym p1] [k_sym p1])
            | None => None
            end
          else
            match pyix h 2, nth_error h 2 with     (* tape[d][2], tape[d][-3] *)
            | Some p2, Some b => Some (Sets (if more 1 b then union a [k_sym p2] else a) [k_sym p2] [k_sym p1])
            | _, _ => None
            end
        else Some (Sets a [k_sym p1] [k_sym p0])
      end
    end.
End Algorithms.

(** ** test_CTL (CTL1.py lines 88-111 and the same in the other files): simulate without
    prover, then run the algorithm on the tape.  [None]: exception or out of fuel. *)
Inductive ctl_kind := CTL1 | CTL2 | CTL3 | CTL4.
Definition ctl_alg {Sym St} (M : machine Sym St) (k : ctl_kind) : algorithm :=
  match k with CTL1 => ctl1 M | CTL2 => ctl2 M | CTL3 => ctl3 M | CTL4 => ctl4 M end.
Definition ctl_init {Sym St} (M : machine Sym St) (k : ctl_kind) (h : list (blk Z Sym)) : option (sets Sym) :=
  match k with CTL1 => Some (init1 M h) | CTL2 => Some (init2 M h) | CTL3 => init3 M h | CTL4 => init4 M h end.

Definition test_machine {Sym St} (M : machine Sym St) (k : ctl_kind) (fuel : nat) (cutoff : Z) : option (bool * nat) :=
  match sim_seek M no_prover cutoff (tt, sim_init zops M) with
  | None => None
  | Some (_, s) =>
    if cond_eqb (s_op s) RUNNING then
      match ctl_init M k (ct_l (s_tape s)), ctl_init M k (ct_r (s_tape s)) with
      | Some l, Some r => ctl_loop M (ctl_alg M k) fuel None [((s_state s, s_dir s), Row l r)] 0
      | _, _ => None
      end
    else Some (false, 0%nat)
  end.

(** block size, offset and backsymbol as in CTL1.py lines 91-95; [mb] and [mk] are the
    limits of the two macro machines (10000 and 1000 by default) *)
Definition ctl_setting (block_size offset : nat) (use_backsymbol : bool) (mb mk : nat) : setting :=
  if Nat.eqb block_size 1 then if use_backsymbol then SBack mk else SBase
  else if use_backsymbol then SBlockBack block_size offset mb mk else SBlock block_size offset mb.

Definition test_CTL (tab : ttable) (g : setting) (k : ctl_kind) (fuel : nat) (cutoff : Z) : option (bool * nat) :=
  with_machine tab g (fun _ _ M => test_machine M k fuel cutoff).
