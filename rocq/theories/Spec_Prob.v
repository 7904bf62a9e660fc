(** * Random computations: finite lists of outcomes with their probabilities *)
Require Import ZArith QArith List.
Import ListNotations.

Definition dist (A : Type) : Type := list (Q * A).
Definition ret {A} (a : A) : dist A := [(1%Q, a)].
Definition bind {A B} (d : dist A) (k : A -> dist B) : dist B :=
  flat_map (fun qa => map (fun rb => (fst qa * fst rb, snd rb)%Q) (k (snd qa))) d.
Definition Qn (n : nat) : Q := inject_Z (Z.of_nat n).

(** the probability of a set of outcomes, given by its indicator *)
Definition expect {A} (d : dist A) (f : A -> Q) : Q := fold_right (fun qa x => fst qa * f (snd qa) + x)%Q 0%Q d.
Definition prob {A} (d : dist A) (f : A -> bool) : Q := expect d (fun a => if f a then 1 else 0)%Q.

(** n (n-1) ... (n-j+1) *)
Fixpoint falling (n j : nat) : Q := match j with O => 1%Q | S j => (Qn n * falling (n - 1) j)%Q end.
