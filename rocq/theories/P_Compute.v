(** * Deciding concrete runs, used by examples and refutations *)
Require Import ZArith List Lia Bool Arith.
From Verif Require Import Spec_TM.
Import ListNotations.
Open Scope Z_scope.

(** does the run from [c] stop exactly with its [S n]-th transition, taken in
    state [q] reading [s]? *)
Definition halts_check (T : table) (c : config) (n q s : nat) (b : bool) : bool :=
  match steps T n c with
  | Some c' => Nat.eqb (st c') q && Nat.eqb (tp c' (hd c')) s &&
               match T q s with Stop _ _ b' => Bool.eqb b b' | Go _ _ _ => false end
  | None => false
  end.

Lemma halts_check_ok T c n q s b :
  halts_check T c n q s b = true -> exists t, halts_at T c (S n) q s b t.
Proof.
  unfold halts_check. destruct (steps T n c) as [c'|] eqn:E; [|discriminate].
  rewrite !andb_true_iff, !Nat.eqb_eq. intros [[H1 H2] H3].
  destruct (T q s) as [|w d b'] eqn:ET; [discriminate|]. apply eqb_prop in H3. subst b'.
  exists (put (tp c') (hd c') w), n, c', w, d. repeat split; auto.
Qed.

Lemma halts_check_halts T c n q s b :
  halts_check T c n q s b = true -> ~ nonhalting T c.
Proof.
  intros H. apply halts_check_ok in H. destruct H as (t & H).
  intros N. eapply halts_not_nonhalting; eauto.
Qed.
