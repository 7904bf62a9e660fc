(** * Properties C01 and C02: the direct simulator *)
Require Import ZArith List Lia Bool Arith.
From Verif Require Import Spec_TM M_Turing_Machine M_Direct P_Stream P_SimLimited P_Macro P_Direct
  P_Quint Prop_Macro.
Import ListNotations.
Open Scope Z_scope.

(** C01.  Seeking to step [k] from the blank tape never raises; afterwards either
    the simulator is running, [step_num = k], and state, head and every cell are
    those of the machine after [k] transitions; or it has halted and step number,
    cell halted from, every tape cell, head position and score are those of the
    machine's halt. *)
Theorem C01_direct_simulation_exact n m tab k :
  wf_ttable n m tab ->
  let T := table_of tab in
  exists s, ds_seek (simple_machine tab) k (ds_new (simple_machine tab)) = Some s /\
    ((ds_halted s = false /\ ds_step_num s = k /\ ds_halt s = None /\
      exists c, steps T k initial = Some c /\ ds_state s = SRun (st c) /\
        dt_position (ds_tape s) = hd c /\
        dt_read (ds_tape s) = Some (tp c (hd c)) /\
        (forall z, dt_read_pos (ds_tape s) z = Some (tp c z)) /\
        score (tp c) (dt_count_nonzero (ds_tape s)))
     \/
     (ds_halted s = true /\ (ds_step_num s <= k)%nat /\
      exists q x b t sc w d c,
        halts_at T initial (ds_step_num s) q x b t /\
        ds_halt s = Some (sc, SRun q, x) /\ score t sc /\
        ds_state s = SHalt /\
        (forall z, dt_read_pos (ds_tape s) z = Some (t z)) /\
        T q x = Stop w d b /\ steps T (pred (ds_step_num s)) initial = Some c /\
        dt_position (ds_tape s) = hd c + dz d)).
Proof.
  intros W T.
  pose proof (ds_new_ok n m tab W) as Hn.
  destruct (ds_seek_loop_ok n m tab k W k (ds_new (simple_machine tab)) Hn) as (s & E & Hs & Hc).
  { simpl. lia. }
  exists s. split; [exact E|]. destruct Hs as (Ho & Hi & [Hr|Hstop]).
  - left. destruct Hr as (Hh & Hhalt & c & Hst & Hq & Hqn & Hp & Ht & Hm).
    assert (Ek : ds_step_num s = k).
    { destruct Hc as [[[Hc|Hc] ->]|(_ & _ & Hc)]; [discriminate| |auto].
      simpl in *. lia. }
    repeat (split; [assumption|]). exists c. rewrite Ek in Hst.
    split; [exact Hst|]. split; [exact Hq|]. split; [exact Hp|].
    split. { rewrite dt_read_at by exact Ho. now rewrite Ht, Hp. }
    split. { intros z. now rewrite dt_read_pos_at, Ht. }
    destruct (dt_at_nonzero_list (ds_tape s)) as (l & H1 & H2 & H3).
    exists l. split; [exact H1|]. split; [|exact H3].
    intros z. rewrite H2, Ht, Hi. reflexivity.
  - right. destruct Hstop as (Hh & q & x & b & t & j & c & H1 & H2 & H3 & H4 & H5 & H6 & w & d & H7 & H8).
    split; [exact Hh|]. split.
    { destruct Hc as [[[Hc|Hc] ->]|(_ & Hc & _)]; simpl in *; [discriminate|discriminate|lia]. }
    exists q, x, b, t, j, w, d, c. repeat (split; [assumption|]).
    split. { intros z. now rewrite dt_read_pos_at, H5. }
    auto.
Qed.

(** the halted flag is set exactly if the machine halts within [k] steps *)
Theorem C01_direct_halted_iff n m tab k s :
  wf_ttable n m tab ->
  ds_seek (simple_machine tab) k (ds_new (simple_machine tab)) = Some s ->
  (ds_halted s = true <->
   exists j q x b t, (j <= k)%nat /\ halts_at (table_of tab) initial j q x b t).
Proof.
  intros W E.
  destruct (C01_direct_simulation_exact n m tab k W) as (s' & E' & H).
  rewrite E in E'. injection E' as <-. split.
  - intros Hh. destruct H as [[Hf _]|(_ & Hle & q & x & b & t & _ & _ & _ & _ & Hx & _)]; [congruence|].
    exists (ds_step_num s), q, x, b, t. auto.
  - intros (j & q & x & b & t & Hle & mm & c' & w & d & -> & Em & -> & -> & HM & Ht).
    destruct H as [(Hf & _ & _ & c & Hc & _)|[Hh _]]; [|exact Hh].
    destruct (steps_le _ _ (S mm) _ _ Hle Hc) as [e He].
    rewrite steps_S, Em in He. unfold step in He. rewrite HM in He. discriminate.
Qed.

(** the 2-state champion: running after 3 steps, halted at step 6 with score 4 *)
Example C01_case :
  wf_ttable 2 2 bb2 /\
  option_map ds_halted (ds_seek (simple_machine bb2) 3 (ds_new (simple_machine bb2))) = Some false /\
  option_map (fun s => (ds_step_num s, ds_halt s))
     (ds_seek (simple_machine bb2) 100 (ds_new (simple_machine bb2)))
  = Some (6%nat, Some (4%nat, SRun 1, 1%nat)).
Proof. split; [exact bb2_wf|]. split; vm_compute; reflexivity. Qed.

(** C02.  Any sequence of operations from a fresh tape succeeds; reads agree with
    the unbounded array [aops]; the reported range is exactly the hull of the
    positions visited or written. *)
Theorem C02_direct_tape_is_array blank os :
  let a := aops (0, fun _ => blank) os in
  exists t, dt_ops (dt_new blank) os = Some t /\
    dt_position t = fst a /\
    dt_read t = Some (snd a (fst a)) /\
    (forall p, dt_read_pos t p = Some (snd a p)) /\
    hull_min (touched 0 os) (dt_leftmost t) /\
    hull_max (touched 0 os) (dt_rightmost t).
Proof.
  intros a.
  destruct (dt_ops_ok os (dt_new blank) 0 (fun _ => blank) (dt_new_ok blank) eq_refl (dt_new_at blank))
    as (t & E & Ho & Hi & Hp & Hf & [Hl Hlx] & [Hr Hrx]).
  exists t. split; [exact E|]. split; [exact Hp|].
  split. { rewrite dt_read_at by exact Ho. rewrite Hf, Hp. reflexivity. }
  split. { intros p. now rewrite dt_read_pos_at, Hf. }
  change (dt_leftmost (dt_new blank)) with 0 in *.
  change (dt_rightmost (dt_new blank)) with 0 in *.
  split; split.
  - destruct Hl as [<-|Hl]; [apply touched_here|exact Hl].
  - intros x Hx. apply Hlx. now right.
  - destruct Hr as [<-|Hr]; [apply touched_here|exact Hr].
  - intros x Hx. apply Hrx. now right.
Qed.

Example C02_case :
  option_map (fun t => (dt_leftmost t, dt_rightmost t, map (dt_read_pos t) [-5; -4; -1; 0; 1]))
    (dt_ops (dt_new 0) [OpWrite 7; OpMove R; OpWritePos 3 (-4); OpMove L; OpMove L; OpWrite 9])
  = Some (-4, 1, [Some 0%nat; Some 3%nat; Some 9%nat; Some 7%nat; Some 0%nat]).
Proof. vm_compute. reflexivity. Qed.

Print Assumptions C01_direct_simulation_exact.
Print Assumptions C01_direct_halted_iff.
Print Assumptions C02_direct_tape_is_array.
