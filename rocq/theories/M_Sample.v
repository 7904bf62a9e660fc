(** * Model of [Code/IO_Sample.py]: a random sample of the records of some files

    A random computation is the list of its outcomes with their probabilities.  random.random() < x
    is true with probability x (for x between 0 and 1, without the rounding of floating point
    numbers), random.randrange(n) is uniform, random.shuffle is any function that permutes. *)
Require Import ZArith QArith List Lia Bool Arith.
From Verif Require Import Spec_Prob M_Turing_Machine.
Import ListNotations.
Open Scope nat_scope.

(** random.random() < x *)
Definition random_below (x : Q) : dist bool := [(x, true); (1 - x, false)%Q].
Definition randrange (n : nat) : dist nat := map (fun i => (/ Qn n, i)%Q) (seq 0 n).

(** how a file ends: properly, or in the middle of a length field (IO_Error on the next access), or
    in the middle of a record (IO_Error if it is read, but it can be skipped) *)
Inductive file_end := Clean | Cut_length | Cut_record.

Section Sample.
  Context {A : Type}.
  Variable n : nat.                          (* sample_size *)
  Definition sample_state : Type := nat * list A.  (* num_records, sample *)

  (** lines 18-43, what happens behind the last complete record of a file: EOF ends the loop,
      IO_Error is caught in lines 44-45.  After a record cut off has been skipped (line 40: the seek
      does not fail) the file is at its end and one more number is drawn, without effect. *)
  Definition at_end (e : file_end) (s : sample_state) : dist sample_state :=
    let '(num_records, sample) := s in
    if Nat.ltb (length sample) n then ret s
    else bind (random_below (Qn n / Qn num_records)) (fun b =>
           if b : bool then ret s
           else match e with
                | Cut_record => bind (random_below (Qn n / Qn (S num_records))) (fun _ => ret (S num_records, sample))
                | _ => ret s
                end).
  Fixpoint sample_file (recs : list A) (e : file_end) (s : sample_state) : dist sample_state :=
    match recs with
    | [] => at_end e s
    | tm_record :: recs =>
      let '(num_records, sample) := s in
      if Nat.ltb (length sample) n then sample_file recs e (S num_records, sample ++ [tm_record])
      else bind (random_below (Qn n / Qn num_records)) (fun b =>
             if b : bool then bind (randrange n) (fun i => sample_file recs e (S num_records, lset sample i tm_record))
             else sample_file recs e (S num_records, sample))
    end.
  (** lines 12-45: all files *)
  Fixpoint sample_files (files : list (list A * file_end)) (s : sample_state) : dist sample_state :=
    match files with
    | [] => ret s
    | (recs, e) :: files => bind (sample_file recs e s) (sample_files files)
    end.
  (** lines 12-53: the number that is printed as "total records" and what is written *)
  Definition sample_run (shuffle : list A -> list A) (files : list (list A * file_end)) : dist sample_state :=
    bind (sample_files files (1, [])) (fun s => ret (fst s, shuffle (snd s))).
End Sample.
