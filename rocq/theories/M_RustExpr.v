(** * Model of the recursive expressions of [rust/src/count_expr.rs]: substitution, normal forms, equality and subtraction

    [None]: the program panics, or the fuel of the model is used up.  Integers do not overflow.  The sums are those of M_Rust. *)
Require Import List Lia Bool Arith.
From Verif Require Import M_Rust.
Import ListNotations.
Open Scope nat_scope.

(** lines 26-52: a sum, or [(λ bound. func)^reps (base)] *)
Inductive cexpr := EV (a : vsum) | ER (bound : nat) (func reps base : cexpr).
(** lines 14-15, 86-102 *)
Definition esubst := list (nat * cexpr).
Fixpoint es_get (s : esubst) (x : nat) : option cexpr := match s with [] => None | (y, e) :: s => if Nat.eqb x y then Some e else es_get s x end.
Definition es_without (s : esubst) (x : nat) : esubst := filter (fun p => negb (Nat.eqb (fst p) x)) s.
(** lines 148-150, 308-313, 439-444: with the bound variable, as in the program *)
Definition has_key (x : nat) (a : vsum) : bool := existsb (Nat.eqb x) (map fst (vs_vars a)).
Fixpoint rust_free (x : nat) (e : cexpr) : bool :=
  match e with EV a => has_key x a | ER _ f n b => (rust_free x f || rust_free x n || rust_free x b)%bool end.
Definition ce_eq_dec : forall a b : cexpr, {a = b} + {a <> b}.
Proof. decide equality; [apply vs_eq_dec|apply Nat.eq_dec]. Defined.

(** lines 153-171 *)
Definition sub_direct (s : esubst) (acc : vsum) (x : nat * nat) : vsum :=
  match es_get s (fst x) with
  | Some (EV e) => vs_add acc (vs_mul e (snd x))
  | None => vs_add acc (vs_mul (vs_var (fst x)) (snd x))
  | Some (ER _ _ _ _) => acc
  end.
Definition sub_recs (s : esubst) (vars : list (nat * nat)) : list (nat * nat * cexpr) :=
  flat_map (fun x => match es_get s (fst x) with Some (ER y f n b) => [(fst x, snd x, ER y f n b)] | _ => [] end) vars.
(** lines 172-178 *)
Fixpoint add_recs (recs : list (nat * nat * cexpr)) (acc : vsum) : option vsum :=
  match recs with
  | [] => Some acc
  | (x, c, _) :: recs => if has_key x acc then None else add_recs recs (vs_add acc (vs_mul (vs_var x) c))
  end.
(** lines 179-201 *)
Fixpoint wrap_recs (recs : list (nat * nat * cexpr)) (e : cexpr) : option cexpr :=
  match recs with
  | [] => Some e
  | (x, _, r) :: recs =>
    if rust_free x e then if ce_eq_dec e (EV (vs_var x)) then Some r else wrap_recs recs (ER x e (EV (vs_of 1)) r) else None
  end.
Definition sum_subst (s : esubst) (a : vsum) : option cexpr :=
  let recs := sub_recs s (vs_vars a) in
  match add_recs recs (fold_left (sub_direct s) (vs_vars a) (vs_of (vs_const a))) with Some sum => wrap_recs recs (EV sum) | None => None end.
(** lines 315-329, 446-451 *)
Fixpoint ce_subst (s : esubst) (e : cexpr) : option cexpr :=
  match e with
  | EV a => sum_subst s a
  | ER x f n b =>
    match ce_subst (es_without s x) f, ce_subst s n, ce_subst s b with Some f, Some n, Some b => Some (ER x f n b) | _, _, _ => None end
  end.

(** lines 266-268, 289-294, 331-355, 489-494 *)
Fixpoint ce_normalize (e : cexpr) : option cexpr :=
  match e with
  | EV a => Some (EV (vs_normalize a))
  | ER x f n b =>
    match ce_normalize f, ce_normalize n, ce_normalize b with
    | Some f', Some n', Some b' =>
      if (match n' with EV a => vs_is_zero a | _ => false end) then Some b'
      else if ce_eq_dec f' (EV (vs_var x)) then Some b'
      else if ce_eq_dec n' (EV (vs_of 1)) then ce_subst [(x, b')] f
      else Some (ER x f' n' b')
    | _, _, _ => None
    end
  end.
(** lines 296-304, 357-386, 470-487, 496-509 *)
Fixpoint known_equal (fuel : nat) (a b : cexpr) : option bool :=
  match fuel with
  | O => None
  | S fuel =>
    let sub a b := match ce_normalize a, ce_normalize b with
      | Some a, Some b =>
        match known_equal fuel a b with
        | Some true => Some (Some (EV (vs_of 0)))
        | Some false => match a, b with EV x, EV y => Some (option_map EV (vs_checked_sub x y)) | _, _ => Some None end
        | None => None
        end
      | _, _ => None
      end in
    match a, b with
    | EV x, EV y => Some (if vs_eq_dec x y then true else false)
    | ER x f n c, ER y g m d =>
      match ce_subst [(y, EV (vs_var x))] g with
      | None => None
      | Some g' =>
        match known_equal fuel f g' with
        | None => None
        | Some false => Some false
        | Some true =>
          match sub n m with
          | None => None
          | Some (Some diff) => match ce_normalize (ER x f diff c) with Some new => known_equal fuel new d | None => None end
          | Some None =>
            match sub m n with
            | None => None
            | Some (Some diff) => match ce_normalize (ER y g diff d) with Some new => known_equal fuel c new | None => None end
            | Some None => Some false
            end
          end
        end
      end
    | _, _ => Some false
    end
  end.
(** lines 470-487 *)
Definition ce_sub (fuel : nat) (a b : cexpr) : option (option cexpr) :=
  match ce_normalize a, ce_normalize b with
  | Some a, Some b =>
    match known_equal fuel a b with
    | Some true => Some (Some (EV (vs_of 0)))
    | Some false => match a, b with EV x, EV y => Some (option_map EV (vs_checked_sub x y)) | _, _ => Some None end
    | None => None
    end
  | _, _ => None
  end.
