(** * What one application of a rule does to the counts

    A rule is a list of blocks: variable (or none), smallest count, count afterwards as an
    expression.  It fires on counts that are at least the minima; every count becomes the
    value of its expression at the old counts. *)
Require Import ZArith List QArith.
From Verif Require Import M_Expr P_Expr.
Import ListNotations.
Open Scope Z_scope.

Definition env (sg : nat -> Z) (x : nat) : Q := inject_Z (sg x).

Inductive fires1 (sg : nat -> Z) : option nat * option Q * option val -> option Z -> option Z -> Prop :=
| F_var x m r z z' :
    sg x = z -> (m <= inject_Z z)%Q -> (evv (env sg) r == inject_Z z')%Q ->
    fires1 sg (Some x, Some m, Some r) (Some z) (Some z')
| F_const m r z z' :
    (evv (env sg) r == inject_Z z')%Q -> fires1 sg (None, m, Some r) (Some z) (Some z')
| F_inf m : fires1 sg (None, m, None) None None.

Inductive fires_with (sg : nat -> Z) :
  list (option nat * option Q * option val) -> list (option Z) -> list (option Z) -> Prop :=
| FW_nil : fires_with sg [] [] []
| FW_cons b bs n ns n' ns' :
    fires1 sg b n n' -> fires_with sg bs ns ns' -> fires_with sg (b :: bs) (n :: ns) (n' :: ns').

Definition fires (vars : list (option nat)) (mins : list (option Q)) (result : list (option val))
           (c c' : list (option Z)) : Prop :=
  exists sg, fires_with sg (combine (combine vars mins) result) c c'.

(** a block of a rule and a count it can be tried on *)
Definition blk_ok (b : option nat * option Q * option val) (n : option Z) : Prop :=
  match b with
  | (None, _, r) => r = option_map (fun z => VS (inject_Z z)) n
  | (Some _, _, _) => n <> None
  end.

Definition min_ok (m : option Q) : Prop := match m with Some q => (0 <= q)%Q | None => True end.

(** variables of a rule *)
Fixpoint vlist (vs : list (option nat)) : list nat :=
  match vs with [] => [] | Some x :: vs => x :: vlist vs | None :: vs => vlist vs end.
