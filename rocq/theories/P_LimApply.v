(** * Applying a limited rule is applying a rule for the whole tape that leaves the far blocks alone *)
Require Import ZArith List Lia Bool Arith QArith Qround Permutation.
From Verif Require Import Spec_TM M_Turing_Machine P_Stream P_SimLimited P_Macro P_Pump
     M_Expr P_Expr M_Tape M_Simulator P_Tape P_Simulator M_Prover P_Lin P_GenSim P_Form P_GenLoop P_Nums P_Rule
     P_MakeRule P_Apply M_ProverLim P_ProverLim.
Import ListNotations.
Open Scope Z_scope.

Definition padi (cs : list (option Z)) : list (option val) := map (option_map (fun z => VS (inject_Z z))) cs.
Definition padd (cs : list (option Z)) : list (option val) := map (option_map (fun _ => VS (inject_Z 0))) cs.

Lemma combine_app {A B} (a a' : list A) (b b' : list B) : length a = length b ->
  combine (a ++ a') (b ++ b') = combine a b ++ combine a' b'.
Proof. revert b. induction a as [|x a IH]; intros [|y b] H; try discriminate; auto. simpl. f_equal. apply IH. now injection H. Qed.

Lemma firstn_len_app {A} (a b : list A) : firstn (length a) (a ++ b) = a.
Proof. now rewrite firstn_app, firstn_all, Nat.sub_diag, app_nil_r. Qed.
Lemma skipn_len_app {A} (a b : list A) : skipn (length a) (a ++ b) = b.
Proof. now rewrite skipn_app, skipn_all, Nat.sub_diag. Qed.

Lemma scan_const cs : forall i bs lim vals,
  diff_scan i (combine (combine (padi cs) (padd cs)) cs ++ bs) lim vals = diff_scan (i + length cs) bs lim vals.
Proof.
  induction cs as [|c cs IH]; intros i bs lim vals; [now rewrite Nat.add_0_r|].
  cbn [padi padd map combine app length]. destruct c as [z|]; cbn [option_map diff_scan];
    fold (padi cs); fold (padd cs); rewrite IH; f_equal; lia.
Qed.

(** two limits that differ only in the position *)
Definition lrel (P : nat -> nat -> Prop) (a b : limit) : Prop :=
  match a, b with
  | None, None => True
  | Some (r, i, f), Some (r', i', f') => r = r' /\ f = f' /\ P i i'
  | _, _ => False
  end.
Lemma scan_shift P bs : forall i j lim lim' vals, lrel P lim lim' ->
  (forall k, (k < length bs)%nat -> P (i + k)%nat (j + k)%nat) ->
  match diff_scan i bs lim vals, diff_scan j bs lim' vals with
  | PExn, PExn => True
  | PFail, PFail => True
  | POk (l, v), POk (l', v') => lrel P l l' /\ v = v'
  | _, _ => False
  end.
Proof.
  induction bs as [|[[o d] n] bs IH]; intros i j lim lim' vals HL HP; [simpl; auto|].
  assert (HP' : forall k, (k < length bs)%nat -> P (S i + k)%nat (S j + k)%nat).
  { intros k Hk. replace (S i + k)%nat with (i + S k)%nat by lia. replace (S j + k)%nat with (j + S k)%nat by lia.
    apply HP. simpl. lia. }
  assert (P0 : P i j) by (specialize (HP 0%nat); rewrite !Nat.add_0_r in HP; apply HP; simpl; lia).
  cbn [diff_scan]. destruct o as [[p|e]|]; try (apply IH; auto).
  destruct (variable_restricted e) as [x|]; [|exact I]. destruct (q_int (e_const e)) as [c|]; [|exact I].
  destruct n as [n|]; [|exact I]. destruct (n - c <? 0); [exact I|]. destruct d as [d|]; [|exact I].
  destruct (v_int d) as [dz|]; [|exact I]. cbv zeta. apply IH; auto.
  destruct (dz <? 0); [|exact HL]. destruct (subtract_max_reps c (- dz) n) as [reps final].
  destruct lim as [[[b bi] bf]|], lim' as [[[b' bi'] bf']|]; simpl in HL; try contradiction; [|simpl; auto].
  destruct HL as (<- & <- & HL). destruct (reps <? b); simpl; auto.
Qed.
Lemma scan_app a b : forall i lim vals,
  diff_scan i (a ++ b) lim vals =
  match diff_scan i a lim vals with
  | PExn => PExn
  | PFail => PFail
  | POk (l, v) => diff_scan (i + length a) b l v
  end.
Proof.
  induction a as [|[[o d] n] a IH]; intros i lim vals; [simpl; now rewrite Nat.add_0_r|].
  cbn [app diff_scan length]. replace (i + S (length a))%nat with (S i + length a)%nat by lia.
  destruct o as [[p|e]|]; try (apply IH).
  destruct (variable_restricted e) as [x|]; [|auto]. destruct (q_int (e_const e)) as [c|]; [|auto].
  destruct n as [n|]; [|auto]. destruct (n - c <? 0); [auto|]. destruct d as [d|]; [|auto].
  destruct (v_int d) as [dz|]; [|auto]. cbv zeta. apply IH; auto.
Qed.

Lemma nums_app reps li f a b : forall i,
  diff_nums i reps li f (a ++ b) =
  match diff_nums i reps li f a, diff_nums (i + length a) reps li f b with
  | Some x, Some y => Some (x ++ y)
  | _, _ => None
  end.
Proof.
  induction a as [|[d n] a IH]; intros i.
  - simpl. rewrite Nat.add_0_r. destruct (diff_nums i reps li f b); reflexivity.
  - cbn [app diff_nums length]. rewrite IH. replace (i + S (length a))%nat with (S i + length a)%nat by lia.
    destruct (diff_nums (S i) reps li f a) as [x|]; auto.
    destruct (diff_nums (S i + length a) reps li f b) as [y|].
    2:{ destruct n; auto. destruct (Nat.eqb i li); auto. destruct d as [d|]; auto. destruct (v_int d); auto. }
    destruct n; auto. destruct (Nat.eqb i li); auto. destruct d as [d|]; auto. destruct (v_int d); auto.
Qed.
Lemma nums_const reps li f cs : forall i, (forall k, (k < length cs)%nat -> (i + k)%nat <> li) ->
  diff_nums i reps li f (combine (padd cs) cs) = Some cs.
Proof.
  induction cs as [|c cs IH]; intros i H; [reflexivity|]. cbn [padd map combine diff_nums].
  fold (padd cs). rewrite IH.
  - destruct c as [z|]; auto. cbn [option_map].
    destruct (Nat.eqb i li) eqn:E.
    { apply Nat.eqb_eq in E. exfalso. apply (H 0%nat); simpl; lia. }
    change (v_int (VS (inject_Z 0))) with (Some 0). cbv beta iota. do 3 f_equal. lia.
  - intros k Hk. replace (S i + k)%nat with (i + S k)%nat by lia. apply H. simpl. lia.
Qed.
Lemma nums_shift reps li li' f bs : forall i j,
  (forall k, (k < length bs)%nat -> ((i + k)%nat = li <-> (j + k)%nat = li')) ->
  diff_nums i reps li f bs = diff_nums j reps li' f bs.
Proof.
  induction bs as [|[d n] bs IH]; intros i j H; [reflexivity|]. cbn [diff_nums].
  rewrite (IH (S i) (S j)).
  2:{ intros k Hk. replace (S i + k)%nat with (i + S k)%nat by lia. replace (S j + k)%nat with (j + S k)%nat by lia.
      apply H. simpl. lia. }
  assert (E : Nat.eqb i li = Nat.eqb j li').
  { specialize (H 0%nat). rewrite !Nat.add_0_r in H. specialize (H ltac:(simpl; lia)).
    apply eq_true_iff_eq. rewrite !Nat.eqb_eq. exact H. }
  now rewrite E.
Qed.
Lemma nums_length reps li f bs : forall i ns, diff_nums i reps li f bs = Some ns -> length ns = length bs.
Proof.
  induction bs as [|[d n] bs IH]; intros i ns; cbn [diff_nums]; [intros [= <-]; reflexivity|].
  destruct (diff_nums (S i) reps li f bs) as [x|] eqn:E; [|discriminate]. apply IH in E.
  destruct n; [|intros [= <-]; simpl; auto]. destruct (Nat.eqb i li); [intros [= <-]; simpl; auto|].
  destruct d as [d|]; [|discriminate]. destruct (v_int d); [|discriminate]. intros [= <-]. simpl. auto.
Qed.

Lemma blks_app {N Sym} (s s' : list Sym) : forall (n n' : list (option N)), length s = length n ->
  blks (s ++ s') (n ++ n') = blks s n ++ blks s' n'.
Proof. induction s as [|a s IH]; intros [|b n] n' H; try discriminate; auto. simpl. f_equal. apply IH. now injection H. Qed.

Definition attach {Sym} (t : ctape Z Sym) (fl fr : list (blk Z Sym)) : ctape Z Sym :=
  CTape (ct_dir t) (ct_l t ++ fl) (ct_r t ++ fr).
Definition knums {Sym} (h : list (blk Z Sym)) : list (option Z) := rev (map k_num h).
Definition hpos {Sym} (h : list (blk Z Sym)) : Prop := Forall pos (map k_num h).

(** [ns] lists [n] entries of the left half, then entries of the right half; more entries below each half *)
Definition pad {A} (cl cr : list A) (n : nat) (ns : list A) : list A :=
  (cl ++ firstn n ns) ++ (cr ++ skipn n ns).

Lemma padi_len cs : length (padi cs) = length cs. Proof. apply map_length. Qed.
Lemma padd_len cs : length (padd cs) = length cs. Proof. apply map_length. Qed.

Lemma apply_pad {Sym} next inits diffs steps seen d (nl nr fl fr : list (blk Z Sym)) :
  length inits = (length nl + length nr)%nat -> length diffs = (length nl + length nr)%nat ->
  hpos fl -> hpos fr ->
  apply_diff_rule next (pad (padi (knums fl)) (padi (knums fr)) (length nl) inits)
                  (pad (padd (knums fl)) (padd (knums fr)) (length nl) diffs) steps seen (CTape d (nl ++ fl) (nr ++ fr)) =
  match apply_diff_rule next inits diffs steps seen (CTape d nl nr) with
  | Some (nx, Some (PApply t' n s)) => Some (nx, Some (PApply (attach t' fl fr) n s))
  | x => x
  end.
Proof.
  intros Li Ld Pl Pr.
  pose proof (firstn_skipn (length nl) inits) as Ei. pose proof (firstn_skipn (length nl) diffs) as Edf.
  set (il := firstn (length nl) inits) in *. set (ir := skipn (length nl) inits) in *.
  set (dl := firstn (length nl) diffs) in *. set (dr := skipn (length nl) diffs) in *.
  assert (Lil : length il = length nl) by (unfold il; rewrite firstn_length; lia).
  assert (Ldl : length dl = length nl) by (unfold dl; rewrite firstn_length; lia).
  assert (Lir : length ir = length nr) by (unfold ir; rewrite skipn_length; lia).
  assert (Ldr : length dr = length nr) by (unfold dr; rewrite skipn_length; lia).
  unfold pad. fold il ir dl dr. clearbody il ir dl dr. subst inits diffs.
  set (cl := knums fl). set (cr := knums fr).
  set (bl := knums nl). set (br := knums nr).
  assert (Lbl : length bl = length nl) by (unfold bl, knums; now rewrite rev_length, map_length).
  assert (Lbr : length br = length nr) by (unfold br, knums; now rewrite rev_length, map_length).
  assert (Lcl : length cl = length fl) by (unfold cl, knums; now rewrite rev_length, map_length).
  assert (Lcr : length cr = length fr) by (unfold cr, knums; now rewrite rev_length, map_length).
  assert (N0 : nums (CTape d nl nr) = bl ++ br) by reflexivity.
  assert (N1 : nums (CTape d (nl ++ fl) (nr ++ fr)) = (cl ++ bl) ++ (cr ++ br)).
  { unfold nums. cbn [ct_l ct_r]. rewrite !map_app, !rev_app_distr. reflexivity. }
  unfold apply_diff_rule. rewrite N0, N1.
  set (P := fun i j => (i < length nl /\ j = i + length cl)%nat \/ (length nl <= i /\ j = i + length cl + length cr)%nat).
  assert (Scan : match diff_scan 0 (combine (combine (il ++ ir) (dl ++ dr)) (bl ++ br)) None [],
                       diff_scan 0 (combine (combine ((padi cl ++ il) ++ padi cr ++ ir) ((padd cl ++ dl) ++ padd cr ++ dr))
                                            ((cl ++ bl) ++ cr ++ br)) None [] with
                 | PExn, PExn => True
                 | PFail, PFail => True
                 | POk (l, v), POk (l', v') => lrel P l l' /\ v = v'
                 | _, _ => False
                 end).
  { rewrite (combine_app (padi cl ++ il)) by (rewrite !app_length, padi_len, padd_len; lia).
    rewrite (combine_app (padi cl)) by (now rewrite padi_len, padd_len).
    rewrite (combine_app (padi cr)) by (now rewrite padi_len, padd_len).
    rewrite (combine_app (combine (padi cl) (padd cl) ++ combine il dl)) by
      (rewrite !app_length, !combine_length, padi_len, padd_len; lia).
    rewrite (combine_app (combine (padi cl) (padd cl))) by (rewrite !combine_length, padi_len, padd_len; lia).
    rewrite (combine_app (combine (padi cr) (padd cr))) by (rewrite !combine_length, padi_len, padd_len; lia).
    rewrite (combine_app il) by lia. rewrite (combine_app (combine il dl)) by (rewrite combine_length; lia).
    rewrite <- app_assoc, scan_const, (scan_app (combine (combine il dl) bl)), (scan_app (combine (combine il dl) bl)).
    pose proof (scan_shift P (combine (combine il dl) bl) 0 (0 + length cl) None None [] I) as S1.
    assert (Lc : length (combine (combine il dl) bl) = length nl) by (rewrite !combine_length; lia).
    assert (Lc2 : length (combine (combine ir dr) br) = length nr) by (rewrite !combine_length; lia).
    rewrite Lc in S1.
    assert (H1 : forall k, (k < length nl)%nat -> P (0 + k)%nat (0 + length cl + k)%nat).
    { intros k Hk. left. lia. }
    specialize (S1 H1).
    destruct (diff_scan 0 (combine (combine il dl) bl) None []) as [| |[l v]];
      destruct (diff_scan (0 + length cl) (combine (combine il dl) bl) None []) as [| |[l' v']]; try contradiction; auto.
    destruct S1 as [S1 <-]. rewrite scan_const.
    apply scan_shift; auto. intros k Hk. right. rewrite Lc. lia. }
  destruct (diff_scan 0 (combine (combine (il ++ ir) (dl ++ dr)) (bl ++ br)) None []) as [| |[lim vals]];
  destruct (diff_scan 0 (combine (combine ((padi cl ++ il) ++ padi cr ++ ir) ((padd cl ++ dl) ++ padd cr ++ dr))
                                            ((cl ++ bl) ++ cr ++ br)) None []) as [| |[lim' vals']];
    try contradiction; auto.
  destruct Scan as [HL <-].
  destruct lim as [[[reps li] final]|], lim' as [[[reps' li'] final']|]; simpl in HL; try contradiction; auto.
  destruct HL as (<- & <- & HP). destruct (reps <=? 0); auto. cbv zeta.
  destruct (v_subst steps _) as [this|]; auto. destruct (series_sum this next (VS (inject_Z reps))) as [total|]; auto.
  destruct (v_int total) as [n|]; auto.
  destruct (seen_map_opt _ seen) as [seen'|]; auto.
  assert (Lb1 : length (combine dl bl) = length nl) by (rewrite combine_length; lia).
  assert (Lb2 : length (combine dr br) = length nr) by (rewrite combine_length; lia).
  rewrite (combine_app dl), (combine_app (padd cl ++ dl)), (combine_app (padd cl)), (combine_app (padd cr)) by
    (rewrite ?app_length, ?padd_len; lia).
  rewrite !nums_app.
  assert (Lp : forall cs, length (combine (padd cs) cs) = length cs) by (intros cs; rewrite combine_length, padd_len; lia).
  rewrite !app_length, !Lp, Lb1.
  rewrite (nums_const reps li' final cl).
  2:{ intros k Hk. destruct HP as [[H1 H2]|[H1 H2]]; lia. }
  rewrite (nums_const reps li' final cr).
  2:{ intros k Hk. destruct HP as [[H1 H2]|[H1 H2]]; lia. }
  rewrite (nums_shift reps li' li final (combine dl bl) (0 + length cl) 0).
  2:{ rewrite Lb1. intros k Hk. destruct HP as [[H1 H2]|[H1 H2]]; lia. }
  rewrite (nums_shift reps li' li final (combine dr br) (0 + (length cl + length nl) + length cr) (0 + length nl)).
  2:{ rewrite Lb2. intros k Hk. destruct HP as [[H1 H2]|[H1 H2]]; lia. }
  destruct (diff_nums 0 reps li final (combine dl bl)) as [x|] eqn:Ex; auto.
  destruct (diff_nums (0 + length nl) reps li final (combine dr br)) as [y|] eqn:Ey; auto.
  apply nums_length in Ex, Ey. rewrite Lb1 in Ex. rewrite Lb2 in Ey.
  f_equal. f_equal. f_equal. f_equal.
  unfold mk, shape. cbn [ct_dir ct_l ct_r]. rewrite !map_app, !app_length, !map_length.
  replace (length nl + length fl)%nat with (length (cl ++ x)) by (rewrite app_length; lia).
  rewrite firstn_len_app, skipn_len_app. rewrite <- Ex, firstn_len_app, skipn_len_app.
  rewrite !rev_app_distr, !blks_app by (rewrite map_length, rev_length; lia).
  assert (G : forall f : list (blk Z Sym), blks (map k_sym f) (rev (knums f)) = f).
  { intros f. unfold knums. rewrite rev_involutive. apply blks_self. }
  unfold cl, cr. rewrite !G. unfold drop_zeros, attach. cbn [ct_dir ct_l ct_r]. rewrite !filter_app.
  assert (F : forall f : list (blk Z Sym), hpos f ->
    filter (fun b => match k_num b with Some z => negb (z =? 0) | None => true end) f = f).
  { intros f Hf. apply filter_all. unfold hpos in Hf. rewrite Forall_map in Hf. eapply Forall_impl; [|exact Hf].
    intros b Hb. simpl in Hb. destruct (k_num b) as [z|]; auto. simpl in Hb. destruct (z =? 0) eqn:E; auto.
    apply Z.eqb_eq in E. lia. }
  now rewrite (F fl Pl), (F fr Pr).
Qed.
