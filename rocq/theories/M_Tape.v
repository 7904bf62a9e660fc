(** * Model of [Code/Macro/Tape.py]

    The repetition counts are Python ints in the simulator and symbolic
    expressions inside the rule prover; the model is written once over an
    interface [numops] of the operations the code applies to a count.
    [math.inf] is [None].  A half tape is a list with the block next to the
    head first (the end of the Python list).  The field [id] of a block is only
    used by the limited rules and is modelled in M_ProverLim. *)
Require Import ZArith List Lia Bool Arith.
From Verif Require Import Spec_TM M_Turing_Machine.
Import ListNotations.

(** [x - 1], [x + y], [x == 0], int literals, [int * x] *)
Record numops (N : Type) := NumOps {
  n_of : Z -> N;
  n_add : N -> N -> N;
  n_eq0 : N -> bool;
  n_mul : Z -> N -> N }.
Arguments NumOps {N}. Arguments n_of {N}. Arguments n_add {N}. Arguments n_eq0 {N}.
Arguments n_mul {N}.

(** Python int counts *)
Definition zops : numops Z := NumOps (fun z => z) Z.add (fun z => Z.eqb z 0) Z.mul.

(** lines 24-29 *)
Record blk (N Sym : Type) := Blk { k_sym : Sym; k_num : option N }.
Arguments Blk {N Sym}. Arguments k_sym {N Sym}. Arguments k_num {N Sym}.

(** lines 52-62 *)
Record ctape (N Sym : Type) := CTape { ct_dir : dir; ct_l : list (blk N Sym); ct_r : list (blk N Sym) }.
Arguments CTape {N Sym}. Arguments ct_dir {N Sym}. Arguments ct_l {N Sym}. Arguments ct_r {N Sym}.

Section Tape.
  Context {N Sym : Type} (O : numops N) (eqb : Sym -> Sym -> bool).

  (** line 57-61 *)
  Definition ct_init (init_symbol : Sym) (init_dir : dir) : ctape N Sym :=
    CTape init_dir [Blk init_symbol None] [Blk init_symbol None].

  (** [self.tape[d]] *)
  Definition half (d : dir) (t : ctape N Sym) : list (blk N Sym) :=
    match d with L => ct_l t | R => ct_r t end.
  Definition set_half (d : dir) (h : list (blk N Sym)) (t : ctape N Sym) : ctape N Sym :=
    match d with L => CTape (ct_dir t) h (ct_r t) | R => CTape (ct_dir t) (ct_l t) h end.

  (** lines 110-117; blocks of infinite length are skipped *)
  Definition half_nonzeros (eval_symbol : Sym -> nat) (h : list (blk N Sym)) (n : N) : N :=
    fold_left (fun n b => match k_num b with
                          | Some k => n_add O n (n_mul O (Z.of_nat (eval_symbol (k_sym b))) k)
                          | None => n
                          end) h n.
  Definition ct_nonzeros (eval_symbol : Sym -> nat) (state_value : nat) (t : ctape N Sym) : N :=
    half_nonzeros eval_symbol (rev (ct_r t))
      (half_nonzeros eval_symbol (rev (ct_l t)) (n_of O (Z.of_nat state_value))).

  (** lines 119-124; IndexError is [None] *)
  Definition ct_top (t : ctape N Sym) : option (blk N Sym) :=
    match half (ct_dir t) t with [] => None | b :: _ => Some b end.

  (** lines 129-137 *)
  Definition pop_one (h : list (blk N Sym)) : option (list (blk N Sym)) :=
    match h with
    | [] => None
    | top :: rest =>
      Some (match k_num top with
            | None => top :: rest
            | Some n => let n := n_add O n (n_of O (-1)) in
                        if n_eq0 O n then rest else Blk (k_sym top) (Some n) :: rest
            end)
    end.

  (** lines 138-146, and 161-166 with [num] for 1 *)
  Definition push_num (h : list (blk N Sym)) (new_symbol : Sym) (num : N) : option (list (blk N Sym)) :=
    match h with
    | [] => None
    | top :: rest =>
      Some (if eqb (k_sym top) new_symbol then
              match k_num top with
              | None => top :: rest
              | Some n => Blk (k_sym top) (Some (n_add O n num)) :: rest
              end
            else Blk new_symbol (Some num) :: top :: rest)
    end.

  (** lines 126-148 *)
  Definition apply_single_move (t : ctape N Sym) (new_symbol : Sym) (new_dir : dir)
    : option (ctape N Sym) :=
    match pop_one (half (ct_dir t) t) with
    | None => None
    | Some h =>
      let t := set_half (ct_dir t) h t in
      match push_num (half (opp new_dir) t) new_symbol (n_of O 1) with
      | None => None
      | Some h => let t := set_half (opp new_dir) h t in
                  Some (CTape new_dir (ct_l t) (ct_r t))
      end
    end.

  (** lines 150-167: the new tape and the number of symbols replaced ([None] = inf) *)
  Definition apply_chain_move (t : ctape N Sym) (new_symbol : Sym)
    : option (ctape N Sym * option N) :=
    match half (ct_dir t) t with
    | [] => None
    | top :: rest =>
      match k_num top with
      | None => Some (t, None)
      | Some num =>
        let t := set_half (ct_dir t) rest t in
        match push_num (half (opp (ct_dir t)) t) new_symbol num with
        | None => None
        | Some h => Some (set_half (opp (ct_dir t)) h t, Some num)
        end
      end
    end.
End Tape.
