(** * Applying a true rule is the same as running the machine *)
Require Import ZArith List Lia Bool Arith QArith Qround Permutation.
From Verif Require Import Spec_TM M_Turing_Machine P_Stream P_SimLimited P_Macro P_Pump
     M_Expr P_Expr M_Tape M_Simulator P_Tape P_Simulator M_Prover P_Lin P_GenSim P_Form P_GenLoop P_Nums P_Rule
     P_MakeRule.
Import ListNotations.
Open Scope Z_scope.

Lemma nd_get_none_iff {N} q (d : ndict N) : nd_get q d = None <-> ~ In q (map fst d).
Proof.
  induction d as [|[k v] d IH]; simpl; [tauto|]. destruct (Nat.eqb q k) eqn:E.
  - apply Nat.eqb_eq in E. subst. split; [discriminate|tauto].
  - apply Nat.eqb_neq in E. rewrite IH. intuition.
Qed.
Lemma nd_get_map {N N'} (f : N -> N') q (d : ndict N) :
  nd_get q (map (fun kv => (fst kv, f (snd kv))) d) = option_map f (nd_get q d).
Proof. induction d as [|[k v] d IH]; simpl; auto. destruct (Nat.eqb q k); auto. Qed.

Lemma zseen_in T c n d e : steps T (Z.to_nat n) c = Some e -> zseen_ok T c n d ->
  forall q, In q (map fst d) <-> exists i e, (i < Z.to_nat n)%nat /\ steps T i c = Some e /\ st e = q.
Proof.
  intros E H q. destruct (H q) as [_ H1]. destruct (nd_get q d) as [j|] eqn:Eq; simpl in H1.
  - destruct H1 as (Hj & (x & Hx & Hq) & _). split; [eauto|]. intros _.
    destruct (in_dec Nat.eq_dec q (map fst d)) as [|Hn]; auto.
    apply nd_get_none_iff in Hn. congruence.
  - apply nd_get_none_iff in Eq. split; [tauto|]. intros (i & x & Hi & Ex & Hq).
    exfalso. exact (H1 i x Hi Ex Hq).
Qed.

(** visits of a run followed by another run through the same states *)
Lemma zseen_extend T c n c' m d0 d1 : 0 <= n -> 0 <= m ->
  steps T (Z.to_nat n) c = Some c' -> zseen_ok T c n d0 -> zseen_ok T c' m d1 ->
  map fst d0 = map fst d1 ->
  zseen_ok T c (n + m) (map (fun kv => (fst kv, n + snd kv)) d1).
Proof.
  intros Hn Hm E H0 H1 HK q. rewrite nd_get_map.
  destruct (H0 q) as [A0 B0]. destruct (H1 q) as [A1 B1].
  pose proof (lastv_app T c (Z.to_nat n) c' (Z.to_nat m) q _ _ E B0 B1) as B.
  rewrite Z2Nat.inj_add by lia.
  destruct (nd_get q d1) as [j|] eqn:E1; simpl in *.
  - split; [lia|]. rewrite Z2Nat.inj_add by lia. exact B.
  - assert (nd_get q d0 = None) as E0.
    { apply nd_get_none_iff. rewrite HK. now apply nd_get_none_iff. }
    rewrite E0 in B. simpl in B. auto.
Qed.

Lemma filter_all {A} (f : A -> bool) l : Forall (fun a => f a = true) l -> filter f l = l.
Proof. induction 1 as [|a l H _ IH]; simpl; auto. now rewrite H, IH. Qed.

Section Apply.
  Context {Sym St : Type}.
  Variables (Gd : Prop) (T : table) (M : machine Sym St) (Rp : dcfg Sym St -> config -> Prop)
            (halted : St -> Prop).
  Hypothesis MS : msound Gd T M Rp halted.
  Hypothesis SW : seen_wf M Rp.
  Hypothesis PU : pumpable Rp.
  Notation i0 := (m_init_sym M).
  Notation wf := (twf i0).
  Notation den := (tden i0).

  Lemma drop_zeros_wf (t : ctape Z Sym) : wf t -> drop_zeros t = t.
  Proof.
    intros [A B]. destruct t as [d l r]. unfold drop_zeros. simpl in *.
    assert (G : forall h, hwf i0 h ->
      Forall (fun b => match k_num b with Some z => negb (z =? 0) | None => true end = true) h).
    { induction 1; constructor; simpl; auto. apply negb_true_iff, Z.eqb_neq. lia. }
    now rewrite !filter_all by auto.
  Qed.

  (** repetitions *)
  Lemma run_reps q (t : nat -> ctape Z Sym) (nn : nat -> Z) (dd : nat -> ndict Z) K N c :
    (forall i, map fst (dd i) = K) ->
    (forall i, (i <= N)%nat -> trans_ok T M Rp q (t i) (t (S i)) (nn i) (dd i)) ->
    Rp (den (t 0%nat) q) c ->
    0 < series (S N) nn /\ wf (t (S N)) /\
    exists c', steps T (Z.to_nat (series (S N) nn)) c = Some c' /\ Rp (den (t (S N)) q) c' /\
      zseen_ok T c (series (S N) nn) (map (fun kv => (fst kv, series N nn + snd kv)) (dd N)).
  Proof.
    intros HK HT R0. induction N as [|N IH].
    - destruct (HT 0%nat ltac:(lia)) as [W H]. destruct (H c R0) as (P & c' & E & R & Z0).
      cbn [series]. rewrite Z.add_0_l. split; [exact P|]. split; [exact W|]. exists c'.
      split; [exact E|]. split; [exact R|]. 
      replace (map (fun kv => (fst kv, 0 + snd kv)) (dd 0%nat)) with (dd 0%nat); auto.
      rewrite <- (map_id (dd 0%nat)) at 1. apply map_ext. intros [a b]. reflexivity.
    - destruct IH as (P & _ & c1 & E & R & Z1); [intros; apply HT; lia|].
      destruct (HT (S N) ltac:(lia)) as [W H]. destruct (H c1 R) as (P2 & c2 & E2 & R2 & Z2).
      cbn [series] in *. set (s := series N nn + nn N) in *.
      split; [lia|]. split; [exact W|]. exists c2.
      split; [rewrite Z2Nat.inj_add by lia; now apply (steps_compose T _ _ c c1 c2)|].
      split; [exact R2|]. eapply zseen_extend; eauto; try lia.
      rewrite map_map. simpl. now rewrite !HK.
  Qed.

  (** a state that is its own successor, or a family of such *)
  Lemma forever q (Inv : ctape Z Sym -> Prop) K :
    (forall t, Inv t -> exists t' n d, Inv t' /\ map fst d = K /\ trans_ok T M Rp q t t' n d) ->
    forall t c, Inv t -> Rp (den t q) c ->
    nonhalting T c /\ (forall x, In x K <-> recurs T c x) /\ only_in T c K.
  Proof.
    intros H t c It R.
    pose (J := fun c => exists t, Inv t /\ Rp (den t q) c).
    assert (HJ : forall c, J c -> exists n e, (0 < n)%nat /\ steps T n c = Some e /\ J e /\
      forall x, In x K <-> exists i e, (i < n)%nat /\ steps T i c = Some e /\ st e = x).
    { clear t c It R. intros c (t & It & R). destruct (H t It) as (t' & n & d & It' & HK & W & HT).
      destruct (HT c R) as (P & c' & E & R' & Zs). exists (Z.to_nat n), c'.
      split; [lia|]. split; [exact E|]. split; [exists t'; auto|]. subst K. eapply zseen_in; eauto. }
    assert (Jc : J c) by (exists t; auto). split.
    - apply (nonhalting_invariant T J); auto. intros c0 H0. destruct (HJ c0 H0) as (n & e & ? & ? & ? & _). eauto.
    - split; [intros x; apply (recurs_invariant T J K); auto|apply (only_in_invariant T J K); auto].
  Qed.

  Lemma recur_states_ok (seen : ndict val) c :
    (forall x, In x (map fst seen) <-> recurs T c x) /\ only_in T c (map fst seen) ->
    inf_states_ok T c (recur_states seen) /\ inf_only T c (recur_states seen).
  Proof. intros [H H']. destruct seen; simpl; auto. Qed.

  Lemma ed_keys sg (d : ndict val) : map fst (ed sg d) = map fst d.
  Proof. unfold ed. rewrite map_map. reflexivity. Qed.

  (** ** difference rules *)

  Fixpoint mkvals (bs : list (option val * option val * option Z)) : list (nat * (Z * Z)) :=
    match bs with
    | [] => []
    | (Some (VE e), Some d, Some n) :: bs =>
      match variable_restricted e, q_int (e_const e), v_int d with
      | Some x, Some c, Some dz => (x, (n - c, dz)) :: mkvals bs
      | _, _, _ => mkvals bs
      end
    | _ :: bs => mkvals bs
    end.

  Definition lim_reps (l : limit) (k : Z) : Prop :=
    match l with Some (r, _, _) => k <= r | None => True end.
  Definition upd (i : nat) (c dz n : Z) (lim : limit) : limit :=
    if dz <? 0 then
      let '(reps, final) := subtract_max_reps c (- dz) n in
      match lim with
      | None => Some (reps, i, final)
      | Some (best, _, _) => if reps <? best then Some (reps, i, final) else lim
      end
    else lim.

  (** what a limit found from position [i] on means *)
  Definition lim_ok (i : nat) (ns : list (option Z)) (diffs : list (option val))
             (mv : list (nat * (Z * Z))) (lim lim' : limit) : Prop :=
    match lim' with
    | None => lim = None /\ forall x a d, In (x, (a, d)) mv -> 0 <= d
    | Some (reps, li, final) =>
      (forall x a d, In (x, (a, d)) mv -> d < 0 -> 0 <= a + (reps - 1) * d) /\
      lim_reps lim reps /\
      (lim_reps lim 1 -> 1 <= reps) /\
      (lim = Some (reps, li, final) \/
       (i <= li)%nat /\ exists n dz, nth_error ns (li - i) = Some (Some n) /\
         nth_error diffs (li - i) = Some (Some (VS (inject_Z dz))) /\ final = n + reps * dz)
    end.

  Lemma lim_skip i n d ns diffs mv lim lim' : lim_ok (S i) ns diffs mv lim lim' ->
    lim_ok i (n :: ns) (d :: diffs) mv lim lim'.
  Proof.
    unfold lim_ok. destruct lim' as [[[r li] f]|]; auto.
    intros (A & B & B' & C). split; [exact A|]. split; [exact B|]. split; [exact B'|].
    destruct C as [C|(C & x & dz & C1 & C2 & C3)]; [left; exact C|right].
    split; [lia|]. exists x, dz. replace (li - i)%nat with (S (li - S i)) by lia. auto.
  Qed.

  Lemma max_reps_ok c dz n r f : dz < 0 -> 0 <= n - c -> subtract_max_reps c (- dz) n = (r, f) ->
    1 <= r /\ f = n + r * dz /\ 0 <= (n - c) + (r - 1) * dz.
  Proof.
    intros Hd Hn E. unfold subtract_max_reps in E. injection E as <- <-.
    replace (n - (c - - dz)) with ((n - c) + 1 * (- dz)) by lia.
    rewrite Z.div_add, Z.mod_add by lia.
    pose proof (Z.div_mod (n - c) (- dz) ltac:(lia)).
    pose proof (Z.mod_pos_bound (n - c) (- dz) ltac:(lia)).
    pose proof (Z.div_pos (n - c) (- dz) ltac:(lia) ltac:(lia)).
    set (u := (n - c) / - dz) in *. set (w := (n - c) mod - dz) in *. nia.
  Qed.

  Lemma lim_var i x c dz n ns diffs mv lim lim' : 0 <= n - c ->
    lim_ok (S i) ns diffs mv (upd i c dz n lim) lim' ->
    lim_ok i (Some n :: ns) (Some (VS (inject_Z dz)) :: diffs) ((x, (n - c, dz)) :: mv) lim lim'.
  Proof.
    intros Hn. unfold upd. destruct (dz <? 0) eqn:Ed; [apply Z.ltb_lt in Ed|apply Z.ltb_ge in Ed].
    2:{ intros H. apply (lim_skip i (Some n) (Some (VS (inject_Z dz)))) in H. revert H. unfold lim_ok.
        destruct lim' as [[[r li] f]|].
        - intros (A & B). split; [|exact B]. intros y a d [[= <- <- <-]|Hi]; [lia|eauto].
        - intros (A & B). split; [exact A|]. intros y a d [[= <- <- <-]|Hi]; [lia|eauto]. }
    destruct (subtract_max_reps c (- dz) n) as [r f] eqn:E.
    destruct (max_reps_ok _ _ _ _ _ Ed Hn E) as (R1 & R2 & R3). clear E.
    intros H. apply (lim_skip i (Some n) (Some (VS (inject_Z dz)))) in H. revert H. unfold lim_ok.
    destruct lim' as [[[r' li] f']|].
    2:{ intros (A & _). destruct lim as [[[b bi] bf]|]; [destruct (r <? b)|]; discriminate. }
    intros (A & B & B' & C).
    assert (Hr : r' <= r).
    { destruct lim as [[[b bi] bf]|]; simpl in B; [|exact B].
      destruct (r <? b) eqn:Er; [exact B|]. apply Z.ltb_ge in Er. simpl in B. lia. }
    assert (Hb : lim_reps lim r').
    { destruct lim as [[[b bi] bf]|]; simpl in *; [|exact I].
      destruct (r <? b) eqn:Er; simpl in B; [apply Z.ltb_lt in Er; lia|exact B]. }
    split; [intros y a d [[= <- <- <-]|Hi]; [nia|eauto]|]. split; [exact Hb|]. split.
    - intros H1. apply B'. destruct lim as [[[b bi] bf]|]; simpl in *; [|exact R1].
      destruct (r <? b); simpl; auto.
    - destruct C as [C|C]; [|right; exact C].
      destruct lim as [[[b bi] bf]|].
      + destruct (r <? b); [|left; exact C]. injection C as -> -> ->.
        right. split; [lia|]. exists n, dz. rewrite Nat.sub_diag. simpl. auto.
      + injection C as -> -> ->. right. split; [lia|]. exists n, dz. rewrite Nat.sub_diag. simpl. auto.
  Qed.

  Lemma diff_scan_ok inits diffs : Forall2 dblock inits diffs -> forall ns, Forall2 dalign inits ns ->
    forall i lim vals,
    diff_scan i (combine (combine inits diffs) ns) lim vals = PFail \/
    exists lim', diff_scan i (combine (combine inits diffs) ns) lim vals =
                   POk (lim', vals ++ mkvals (combine (combine inits diffs) ns)) /\
      (forall x a d, In (x, (a, d)) (mkvals (combine (combine inits diffs) ns)) -> 0 <= a) /\
      lim_ok i ns diffs (mkvals (combine (combine inits diffs) ns)) lim lim'.
  Proof.
    induction 1 as [|o d inits diffs Hb Hf IH]; intros ns Hal i lim vals.
    - inversion Hal; subst. right. simpl. exists lim. rewrite app_nil_r. split; [reflexivity|].
      split; [tauto|]. unfold lim_ok. destruct lim as [[[r li] f]|]; simpl; [|split; [reflexivity|tauto]].
      split; [tauto|]. split; [lia|]. split; [lia|]. left. reflexivity.
    - inversion Hal as [|? n ? ns' Ha Hal']; subst. cbn [combine].
      destruct o as [[p|e]|].
      + cbn [diff_scan mkvals].
        destruct (IH ns' Hal' (S i) lim vals) as [->|(lim' & -> & H1 & H2)]; [now left|].
        right. exists lim'. split; [reflexivity|]. split; [exact H1|]. now apply lim_skip.
      + destruct d as [[r|]|]; simpl in Hb; try contradiction.
        destruct Hb as (x & c & dz & -> & Hc & ->).
        destruct n as [n|]; simpl in Ha; [|contradiction].
        cbn [diff_scan mkvals]. change (variable_restricted (var_plus x (inject_Z c))) with (Some x).
        change (e_const (var_plus x (inject_Z c))) with (inject_Z c). cbn [v_int]. rewrite !q_int_inj.
        destruct (n - c <? 0) eqn:En; [now left|]. apply Z.ltb_ge in En. cbv zeta.
        match goal with |- context [diff_scan (S i) _ ?l _] => change l with (upd i c dz n lim) end.
        destruct (IH ns' Hal' (S i) (upd i c dz n lim) (vals ++ [(x, (n - c, dz))])) as [->|(lim' & -> & H1 & H2)];
          [now left|].
        right. exists lim'. rewrite <- app_assoc. split; [reflexivity|].
        split; [intros y a b [[= <- <- <-]|Hi]; [exact En|eauto]|]. now apply lim_var.
      + cbn [diff_scan mkvals].
        destruct (IH ns' Hal' (S i) lim vals) as [->|(lim' & -> & H1 & H2)]; [now left|].
        right. exists lim'. split; [reflexivity|]. split; [exact H1|]. now apply lim_skip.
  Qed.

  (** the assignment of the [i]-th repetition *)
  Fixpoint vget (x : nat) (l : list (nat * (Z * Z))) : option (Z * Z) :=
    match l with [] => None | (y, v) :: l => if Nat.eqb x y then Some v else vget x l end.
  Definition sgi (l : list (nat * (Z * Z))) (i : Z) : nat -> Z :=
    fun x => match vget x l with Some (a, d) => a + i * d | None => 0 end.

  Lemma vget_in x l v : vget x l = Some v -> In (x, v) l.
  Proof.
    induction l as [|[y w] l IH]; simpl; [discriminate|]. destruct (Nat.eqb x y) eqn:E; auto.
    intros [= <-]. apply Nat.eqb_eq in E. subst. auto.
  Qed.
  Lemma vget_some x l : In x (map fst l) -> exists v, vget x l = Some v.
  Proof.
    induction l as [|[y w] l IH]; simpl; [tauto|]. destruct (Nat.eqb x y) eqn:E; eauto.
    apply Nat.eqb_neq in E. intros [H|H]; [congruence|auto].
  Qed.

  Lemma mkvals_vars inits diffs : Forall2 dblock inits diffs -> forall ns, Forall2 dalign inits ns ->
    map fst (mkvals (combine (combine inits diffs) ns)) = flat_map nvars inits.
  Proof.
    induction 1 as [|o d inits diffs Hb Hf IH]; intros ns Hal; inversion Hal as [|? n ? ns' Ha Hal']; subst; auto.
    cbn [combine flat_map]. destruct o as [[p|e]|].
    - simpl. apply (IH ns' Hal').
    - destruct d as [[r|]|]; simpl in Hb; try contradiction.
      destruct Hb as (x & c & dz & -> & Hc & ->). destruct n as [n|]; simpl in Ha; [|contradiction].
      cbn [mkvals]. change (variable_restricted (var_plus x (inject_Z c))) with (Some x).
      change (e_const (var_plus x (inject_Z c))) with (inject_Z c). cbn [v_int]. rewrite !q_int_inj.
      simpl. f_equal. apply (IH ns' Hal').
    - simpl. apply (IH ns' Hal').
  Qed.

  Lemma sgi_ez inits diffs l i : Forall2 dblock inits diffs -> forall ns, Forall2 dalign inits ns ->
    (forall x v, In (x, v) (mkvals (combine (combine inits diffs) ns)) -> vget x l = Some v) ->
    ez (sgi l i) inits = addk i ns diffs.
  Proof.
    induction 1 as [|o d inits diffs Hb Hf IH]; intros ns Hal Hv; inversion Hal as [|? n ? ns' Ha Hal']; subst; auto.
    unfold addk. cbn [combine ez map]. destruct o as [[p|e]|].
    - destruct d as [[r|]|]; simpl in Hb; try contradiction. destruct Hb as [_ ->].
      destruct n as [n|]; simpl in Ha; [|contradiction]. subst p. cbn [option_map add1]. rewrite !zev_VS.
      f_equal; [f_equal; lia|]. apply IH; auto.
    - destruct d as [[r|]|]; simpl in Hb; try contradiction.
      destruct Hb as (x & c & dz & -> & Hc & ->). destruct n as [n|]; simpl in Ha; [|contradiction].
      cbn [combine mkvals] in Hv. change (variable_restricted (var_plus x (inject_Z c))) with (Some x) in Hv.
      change (e_const (var_plus x (inject_Z c))) with (inject_Z c) in Hv. cbn [v_int] in Hv. rewrite !q_int_inj in Hv.
      cbn [option_map add1]. rewrite zev_var_plus, zev_VS. unfold sgi at 1.
      rewrite (Hv x (n - c, dz)) by (left; reflexivity).
      f_equal; [f_equal; lia|]. apply IH; auto. intros y v Hy. apply Hv. right. exact Hy.
    - destruct d; simpl in Hb; [contradiction|]. destruct n; simpl in Ha; [contradiction|].
      cbn [option_map add1]. f_equal. apply IH; auto.
  Qed.

  Lemma vget_nodup l x v : NoDup (map fst l) -> In (x, v) l -> vget x l = Some v.
  Proof.
    induction l as [|[y w] l IH]; simpl; intros N H; [tauto|]. inversion N as [|? ? Hy N']; subst.
    destruct H as [H|H].
    - injection H as -> ->. now rewrite Nat.eqb_refl.
    - destruct (Nat.eqb x y) eqn:E; auto. apply Nat.eqb_eq in E. subst y.
      exfalso. apply Hy. apply in_map_iff. exists (x, v). auto.
  Qed.

  Lemma addk_add i ns diffs : addk 1 (addk i ns diffs) diffs = addk (i + 1) ns diffs.
  Proof.
    revert diffs. induction ns as [|n ns IH]; intros [|d diffs]; auto.
    unfold addk in *. cbn [combine map]. f_equal; [|apply IH].
    destruct n, d; cbn [add1]; auto. f_equal. ring.
  Qed.
  Lemma addk_0 inits ns diffs : Forall2 dblock inits diffs -> Forall2 dalign inits ns -> addk 0 ns diffs = ns.
  Proof.
    intros H. revert ns. induction H as [|o d inits diffs Hb Hf IH]; intros ns Hal;
      inversion Hal as [|? n ? ns' Ha Hal']; subst; auto.
    unfold addk in *. cbn [combine map]. f_equal; [|now apply IH].
    destruct o as [[|]|], d as [[|]|], n; simpl in Hb, Ha; try contradiction; auto; cbn [add1];
      now rewrite Z.mul_0_l, Z.add_0_r.
  Qed.

  Lemma diff_nums_ok inits diffs : Forall2 dblock inits diffs -> forall ns, Forall2 dalign inits ns ->
    forall i reps li final,
    (forall n dz, (i <= li)%nat -> nth_error ns (li - i) = Some (Some n) ->
       nth_error diffs (li - i) = Some (Some (VS (inject_Z dz))) -> final = n + reps * dz) ->
    diff_nums i reps li final (combine diffs ns) = Some (addk reps ns diffs).
  Proof.
    induction 1 as [|o d inits diffs Hb Hf IH]; intros ns Hal i reps li final Hl;
      inversion Hal as [|? n ? ns' Ha Hal']; subst; auto.
    cbn [combine diff_nums].
    assert (Hl' : forall n dz, (S i <= li)%nat -> nth_error ns' (li - S i) = Some (Some n) ->
       nth_error diffs (li - S i) = Some (Some (VS (inject_Z dz))) -> final = n + reps * dz).
    { intros n1 dz H1 H2 H3. apply Hl; [lia| |]; replace (li - i)%nat with (S (li - S i)) by lia; auto. }
    rewrite (IH ns' Hal' (S i) reps li final Hl').
    unfold addk. cbn [combine map].
    destruct n as [n|].
    2:{ destruct d; simpl in *; destruct o as [[|]|]; simpl in *; try contradiction; reflexivity. }
    assert (Hd : exists dz, d = Some (VS (inject_Z dz))).
    { destruct o as [[|]|], d as [[|]|]; simpl in *; try contradiction.
      - destruct Hb as [_ ->]. eauto.
      - destruct Hb as (x & c & z & _ & _ & ->). eauto. }
    destruct Hd as [dz ->].
    destruct (Nat.eqb i li) eqn:Ei.
    - apply Nat.eqb_eq in Ei. subst li. rewrite (Hl n dz); auto; rewrite ?Nat.sub_diag; auto.
      cbn [add1]. now rewrite zev_VS.
    - cbn [v_int]. rewrite q_int_inj. cbn [add1]. now rewrite zev_VS.
  Qed.

  Lemma subs_get_map l (f : nat * (Z * Z) -> val) x :
    subs_get x (map (fun xv => (fst xv, f xv)) l) =
    match vget x l with Some v => Some (f (x, v)) | None => None end.
  Proof.
    induction l as [|[y w] l IH]; simpl; auto. destruct (Nat.eqb x y) eqn:E; auto.
    apply Nat.eqb_eq in E. now subst.
  Qed.

  Lemma lsubs_map l (f : nat * (Z * Z) -> val) : (forall xv, lv (f xv)) ->
    lsubs (map (fun xv => (fst xv, f xv)) l).
  Proof. intros H. apply Forall_forall. intros xv Hx. apply in_map_iff in Hx. destruct Hx as (y & <- & _). apply H. Qed.

  Lemma seen_eval V (seen : ndict val) (g : val -> val) (s : subs) (sg : nat -> Z) (h : Z -> Z) :
    dlin seen -> dvars seen V -> lsubs s ->
    (forall x, In x V -> exists z, subs_get x s = Some (VS (inject_Z z)) /\ sg x = z) ->
    (forall v, lv v -> incl (v_variables v) V ->
       lv (g v) /\ incl (v_variables (g v)) V /\ zev sg (g v) = h (zev sg v)) ->
    seen_map_opt (fun ls => match v_subst (g ls) s with Some v => v_int v | None => None end) seen =
      Some (map (fun kv => (fst kv, h (snd kv))) (ed sg seen)).
  Proof.
    intros Hl Hv Hs Hsub Hg. induction seen as [|[k v] seen IH]; [reflexivity|].
    inversion Hl as [|? ? Hl1 Hl2]; subst. inversion Hv as [|? ? Hv1 Hv2]; subst. cbn [snd] in *.
    destruct (Hg v Hl1 Hv1) as (G1 & G2 & G3).
    destruct (v_subst_num (g v) s G1 Hs) as (z & Ez).
    { intros x Hx. destruct (Hsub x (G2 x Hx)) as (z & Ez & _). eauto. }
    assert (Eq : z = h (zev sg v)).
    { rewrite <- G3. rewrite <- (zev_VS sg z). eapply zev_subst; [exact G1|exact Ez|].
      intros x Hx. destruct (Hsub x (G2 x Hx)) as (y & -> & Ey). split; [apply VS_lin|]. now rewrite zev_VS. }
    unfold seen_map_opt in *. cbn [map_opt fst snd ed map]. rewrite Ez. cbn [v_int]. rewrite q_int_inj. cbn [option_map].
    rewrite (IH Hl2 Hv2). now subst z.
  Qed.

  Definition out_ok (t : ctape Z Sym) (q : St) (c : config) (o : option (prover_result Z Sym)) : Prop :=
    match o with Some r => result_ok T M Rp t q c r | None => True end.

  Lemma apply_diff_ok next sh q inits diffs num seen t c :
    diff_ok T M Rp sh q inits diffs num seen -> Forall2 dalign inits (nums t) -> shape t = sh ->
    Rp (den t q) c ->
    exists nx o, apply_diff_rule next inits diffs num seen t = Some (nx, o) /\ out_ok t q c o.
  Proof.
    intros D Al Sh R. destruct D as [Db Dn Ds Dv (Dl & Dk & Dw) Dr].
    unfold apply_diff_rule.
    pose proof (mkvals_vars _ _ Db _ Al) as Hvars.
    set (mv := mkvals (combine (combine inits diffs) (nums t))) in *.
    assert (Nd : NoDup (map fst mv)) by (rewrite Hvars; exact Dn).
    assert (Hez : forall i, ez (sgi mv i) inits = addk i (nums t) diffs).
    { intros i. apply sgi_ez; auto. intros x v. apply vget_nodup; auto. }
    assert (E0 : mk sh (addk 0 (nums t) diffs) = t).
    { rewrite (addk_0 inits) by assumption. subst sh. apply mk_self. }
    destruct (diff_scan_ok _ _ Db _ Al 0%nat None []) as [->|(lim & -> & Ha & Hl)].
    { do 2 eexists. split; [reflexivity|exact I]. }
    fold mv in Ha, Hl |- *. rewrite app_nil_l.
    assert (Run : forall i, (forall x, In x (flat_map nvars inits) -> 0 <= sgi mv i x) ->
      trans_ok T M Rp q (mk sh (addk i (nums t) diffs)) (mk sh (addk (i + 1) (nums t) diffs))
        (zev (sgi mv i) num) (ed (sgi mv i) seen)).
    { intros i Hi. pose proof (Dr (sgi mv i) Hi) as H. rewrite Hez, addk_add in H. exact H. }
    assert (Hget : forall x, In x (flat_map nvars inits) -> exists a d, vget x mv = Some (a, d) /\ In (x, (a, d)) mv).
    { intros x Hx. rewrite <- Hvars in Hx. destruct (vget_some _ _ Hx) as ([a d] & E).
      exists a, d. split; auto. now apply vget_in. }
    destruct lim as [[[reps li] final]|].
    2:{ (* nothing decreases *)
        destruct Hl as [_ Hd]. do 2 eexists. split; [reflexivity|]. simpl.
        destruct (forever q (fun t' => exists i, 0 <= i /\ t' = mk sh (addk i (nums t) diffs)) (map fst seen))
          with (t := t) (c := c) as [H1 H2]; auto.
        - intros t' (i & Hi & ->). exists (mk sh (addk (i + 1) (nums t) diffs)), (zev (sgi mv i) num), (ed (sgi mv i) seen).
          split; [exists (i + 1); split; [lia|auto]|]. split; [apply ed_keys|]. apply Run.
          intros x Hx. destruct (Hget x Hx) as (a & d & E & Hin). unfold sgi. rewrite E.
          pose proof (Ha _ _ _ Hin). pose proof (Hd _ _ _ Hin). nia.
        - exists 0. split; [lia|now symmetry].
        - split; [exact H1|]. now apply recur_states_ok. }
    destruct Hl as (Hd & _ & Hr & Hli). simpl in Hr. specialize (Hr I).
    assert (reps <=? 0 = false) as -> by (apply Z.leb_gt; lia). cbv zeta.
    destruct Hli as [Hli|(_ & n0 & dz0 & Hn0 & Hd0 & Hf0)]; [discriminate|].
    rewrite Nat.sub_0_r in Hn0, Hd0.
    assert (Hpos : forall i, (i < Z.to_nat reps)%nat -> forall x, In x (flat_map nvars inits) -> 0 <= sgi mv (Z.of_nat i) x).
    { intros i Hi x Hx. destruct (Hget x Hx) as (a & d & E & Hin). unfold sgi. rewrite E.
      pose proof (Ha _ _ _ Hin). destruct (Z_lt_le_dec d 0) as [Hneg|Hnn].
      - pose proof (Hd _ _ _ Hin Hneg). nia.
      - nia. }
    (* the number of steps *)
    set (sub := map _ mv). 
    assert (Lsub : lsubs sub).
    { apply (lsubs_map mv (fun xv => v_add (VS (inject_Z (fst (snd xv))))
         (v_mul (VS (inject_Z (snd (snd xv)))) (VE (var_expr next))))).
      intros xv. apply v_add_lin; [apply VS_lin|]. apply v_mul_lin, var_expr_lin. }
    assert (Gsub : forall x, subs_get x sub = match vget x mv with
       | Some (a, d) => Some (v_add (VS (inject_Z a)) (v_mul (VS (inject_Z d)) (VE (var_expr next)))) | None => None end).
    { intros x. unfold sub. rewrite (subs_get_map mv (fun xv => v_add (VS (inject_Z (fst (snd xv))))
         (v_mul (VS (inject_Z (snd (snd xv)))) (VE (var_expr next))))). destruct (vget x mv) as [[a d]|]; reflexivity. }
    destruct (v_subst_lin num sub Ds Lsub) as (this & Ethis & Lthis). rewrite Ethis.
    assert (Hthis : forall i, zev (fun _ => Z.of_nat i) this = zev (sgi mv (Z.of_nat i)) num).
    { intros i. eapply zev_subst; [exact Ds|exact Ethis|]. intros x Hx. rewrite Gsub.
      destruct (Hget x (Dv x Hx)) as (a & d & E & _). unfold sgi. rewrite E. split.
      - apply v_add_lin; [apply VS_lin|]. apply v_mul_lin, var_expr_lin.
      - rewrite zev_add by (try apply VS_lin; apply v_mul_lin, var_expr_lin).
        rewrite zev_VS, zev_mul by apply var_expr_lin. rewrite zev_var. lia. }
    set (nn := fun i : nat => zev (sgi mv (Z.of_nat i)) num).
    assert (Eser : series_sum this next (VS (inject_Z reps)) = Some (VS (inject_Z (series (Z.to_nat reps) nn)))).
    { replace reps with (Z.of_nat (Z.to_nat reps)) at 1 by lia.
      rewrite series_sum_lin; auto.
      - do 3 f_equal. apply series_ext. intros i _. apply Hthis.
      - intros x Hx. destruct (v_subst_vars _ _ _ _ Ds Lsub Ethis Hx) as (y & Hy & Hm).
        rewrite Gsub in Hm. destruct (Hget y (Dv y Hy)) as (a & d & E & _). rewrite E in Hm.
        apply v_add_vars in Hm. destruct Hm as [[]|Hm]. apply v_mul_vars in Hm. simpl in Hm.
        destruct Hm as [<-|[]]. reflexivity. }
    rewrite Eser. clear Eser. cbn [v_int]. rewrite q_int_inj.
    (* last visits *)
    destruct (Z.to_nat reps) as [|N] eqn:EN; [lia|].
    set (total := series (S N) nn).
    set (last := map _ mv).
    rewrite (seen_eval (flat_map nvars inits) seen (fun ls => v_sub (VS (inject_Z total)) (v_sub num ls)) last
               (sgi mv (Z.of_nat N)) (fun z => series N nn + z)); auto.
    2:{ apply (lsubs_map mv (fun xv => VS (inject_Z (fst (snd xv) + snd (snd xv) * (reps - 1))))). intros; apply VS_lin. }
    2:{ intros x Hx. destruct (Hget x Hx) as (a & d & E & _).
        exists (a + d * (reps - 1)). split.
        - unfold last. rewrite (subs_get_map mv (fun xv => VS (inject_Z (fst (snd xv) + snd (snd xv) * (reps - 1))))).
          rewrite E. reflexivity.
        - unfold sgi. rewrite E. nia. }
    2:{ intros v Hv Hvi. split; [|split].
        - apply v_sub_lin; [apply VS_lin|]. now apply v_sub_lin.
        - intros x Hx. apply v_sub_vars in Hx. destruct Hx as [[]|Hx]. apply v_sub_vars in Hx.
          destruct Hx; auto.
        - rewrite zev_sub; [|apply VS_lin|now apply v_sub_lin]. rewrite zev_sub by assumption.
          rewrite zev_VS. unfold total. cbn [series]. unfold nn at 2. lia. }
    rewrite (diff_nums_ok _ _ Db _ Al).
    2:{ intros n dz _ Hn Hz. rewrite Nat.sub_0_r in Hn, Hz. rewrite Hn in Hn0. rewrite Hz in Hd0.
        injection Hn0 as ->. injection Hd0 as E. rewrite Hf0. congruence. }
    do 2 eexists. split; [reflexivity|].
    destruct (run_reps q (fun i => mk sh (addk (Z.of_nat i) (nums t) diffs)) nn
                (fun i => ed (sgi mv (Z.of_nat i)) seen) (map fst seen) N c) as (P & W & c' & E & R' & Zs).
    - intros i. apply ed_keys.
    - intros i Hi. pose proof (Run (Z.of_nat i) (Hpos i ltac:(lia))) as H.
      replace (Z.of_nat (S i)) with (Z.of_nat i + 1) by lia. exact H.
    - simpl. rewrite E0. exact R.
    - replace (Z.of_nat (S N)) with reps in * by lia. cbn [out_ok result_ok]. subst sh.
      rewrite drop_zeros_wf by exact W. split; [exact W|].
      split; [unfold mk, shape; reflexivity|]. split; [exact P|]. split; [eauto|].
      split; [|exact Zs]. rewrite map_map. cbn [fst]. rewrite ed_keys. exact Dk.
  Qed.

  (** ** general rules *)

  Fixpoint gl (bs : list (option nat * option Q * option Z)) : list (nat * Z) :=
    match bs with
    | [] => []
    | (Some x, Some m, Some z) :: bs => (x, z) :: gl bs
    | _ :: bs => gl bs
    end.
  Definition asgl (l : list (nat * Z)) : subs := map (fun xz => (fst xz, VS (inject_Z (snd xz)))) l.
  Definition sgl (l : list (nat * Z)) : nat -> Z :=
    fun x => match nd_get x l with Some z => z | None => 0 end.
  Definition fits (vm : list (option nat * option Q)) (sg : nat -> Z) : Prop :=
    forall x z, In (Some x, Some (inject_Z z)) vm -> z <= sg x.

  Lemma asgl_get l x : subs_get x (asgl l) = option_map (fun z => VS (inject_Z z)) (nd_get x l).
  Proof. induction l as [|[y z] l IH]; simpl; auto. destruct (Nat.eqb x y); auto. Qed.
  Lemma asgl_lin l : lsubs (asgl l).
  Proof. apply Forall_forall. intros xv Hx. apply in_map_iff in Hx. destruct Hx as (y & <- & _). apply VS_lin. Qed.

  Lemma gl_vars V vm result ns : Forall2 (gblock V) vm result -> Forall2 galign vm ns ->
    map fst (gl (combine vm ns)) = flat_map ovar (map fst vm).
  Proof.
    intros H. revert ns. induction H as [|[x p] r vm result Hb Hf IH]; intros ns Hal;
      inversion Hal as [|? n ? ns' Ha Hal']; subst; auto.
    cbn [combine flat_map map fst]. destruct x as [x|], p as [p|], n as [n|]; simpl in Ha; try contradiction;
      cbn [gl map fst ovar app]; try (now apply IH). f_equal. now apply IH.
  Qed.

  Lemma nd_get_nodup {N} (l : ndict N) x v : NoDup (map fst l) -> In (x, v) l -> nd_get x l = Some v.
  Proof.
    induction l as [|[y w] l IH]; simpl; intros N0 H; [tauto|]. inversion N0 as [|? ? Hy N']; subst.
    destruct H as [H|H].
    - injection H as -> ->. now rewrite Nat.eqb_refl.
    - destruct (Nat.eqb x y) eqn:E; auto. apply Nat.eqb_eq in E. subst y.
      exfalso. apply Hy. apply in_map_iff. exists (x, v). auto.
  Qed.

  Lemma gl_cnt vm ns l : Forall2 galign vm ns ->
    (forall x z, In (x, z) (gl (combine vm ns)) -> nd_get x l = Some z) ->
    map (cnt (sgl l)) vm = ns.
  Proof.
    induction 1 as [|[x p] n vm ns Ha Hf IH]; intros Hl; auto. cbn [map combine] in *.
    destruct x as [x|], p as [p|], n as [n|]; simpl in Ha; try contradiction; cbn [gl cnt] in *.
    - unfold sgl at 1. rewrite (Hl x n) by (left; reflexivity). f_equal. apply IH. intros; apply Hl. now right.
    - subst n. f_equal. now apply IH.
    - f_equal. now apply IH.
  Qed.

  Lemma always_ge_num z p : always_ge (VS (inject_Z z)) (VS (inject_Z p)) = true -> p <= z.
  Proof.
    intros H. apply (always_ge_sound _ _ (fun _ => 0%Q)) in H; [|intros; apply Qle_refl].
    simpl in H. now apply injZ_le.
  Qed.

  Lemma fits_min_ok V vm result : Forall2 (gblock V) vm result -> forall ns, Forall2 galign vm ns -> forall asg,
    fits_min (combine vm ns) asg = Some None \/
    fits_min (combine vm ns) asg = Some (Some (asg ++ asgl (gl (combine vm ns)))) /\
    forall x p z, In (Some x, Some (inject_Z p), Some z) (combine vm ns) -> p <= z.
  Proof.
    induction 1 as [|[x p] r vm result Hb Hf IH]; intros ns Hal asg;
      inversion Hal as [|? n ? ns' Ha Hal']; subst.
    - right. simpl. rewrite app_nil_r. split; [reflexivity|tauto].
    - cbn [combine].
      destruct x as [x|], p as [p|], n as [n|]; simpl in Ha; try contradiction; cbn [fits_min gl].
      + destruct (always_ge (VS (inject_Z n)) (VS p)) eqn:Eg; [|now left].
        destruct (IH ns' Hal' (asg ++ [(x, VS (inject_Z n))])) as [->|[-> H]]; [now left|right].
        split; [now rewrite <- app_assoc|].
        intros y p' z [E|Hi]; [|eauto]. injection E as <- E <-. subst p. now apply always_ge_num.
      + destruct (IH ns' Hal' asg) as [->|[-> H]]; [now left|right]. split; [reflexivity|].
        intros y p' z [E|Hi]; [discriminate|eauto].
      + destruct (IH ns' Hal' asg) as [->|[-> H]]; [now left|right]. split; [reflexivity|].
        intros y p' z [E|Hi]; [discriminate|eauto].
  Qed.

  Lemma gl_in vm ns x p : Forall2 galign vm ns -> In (Some x, Some p) vm ->
    exists z, In (Some x, Some p, Some z) (combine vm ns) /\ In (x, z) (gl (combine vm ns)).
  Proof.
    induction 1 as [|[y r] n vm ns Ha Hf IH]; intros Hi; [destruct Hi|]. cbn [combine].
    destruct Hi as [E|Hi].
    - injection E as -> ->. destruct n as [n|]; simpl in Ha; [|contradiction].
      exists n. split; [left; reflexivity|]. left. reflexivity.
    - destruct (IH Hi) as (z & H1 & H2). exists z. split; [now right|].
      destruct y, r, n; simpl in Ha; try contradiction; cbn [gl]; auto. now right.
  Qed.

  Lemma zfit vm result V ns sg : Forall2 (gblock V) vm result ->
    Forall pos (ez sg result) -> ns = ez sg result -> Forall2 galign vm ns.
  Proof.
    intros H Hp ->. induction H as [|[x p] r vm result Hb Hf IH]; [constructor|].
    inversion Hp as [|? ? P1 P2]; subst. cbn [ez map]. constructor; [|now apply IH].
    destruct x as [x|], p as [p|], r as [w|]; simpl in Hb; try contradiction.
    - exact P1.
    - destruct Hb as [_ ->]. cbn [option_map galign]. apply zev_VS.
    - exact I.
  Qed.

  Lemma znums_eqb_eq a : forall b, znums_eqb a b = true -> a = b.
  Proof.
    induction a as [|[x|] a IH]; intros [|[y|] b]; simpl; intros H; try discriminate; auto.
    - apply andb_true_iff in H. destruct H as [H1 H2]. apply Z.eqb_eq in H1. f_equal; [congruence|auto].
    - f_equal. auto.
  Qed.

  Lemma combine_fst {A B} (l : list A) : forall l' : list B, length l = length l' -> map fst (combine l l') = l.
  Proof. induction l as [|a l IH]; intros [|b l'] H; simpl in *; try discriminate; auto. f_equal. apply IH. lia. Qed.

  Lemma inf_grow W sg x z : (forall x, In x W -> 0 <= sg x) -> forall vars mins result,
    Forall2 (gblock W) (combine vars mins) result -> length vars = length mins ->
    forallb gen_infinite (combine vars result) = true ->
    In (x, z) (gl (combine (combine vars mins) (ez sg result))) -> sg x <= z.
  Proof.
    intros Hs. induction vars as [|v vs IH]; intros [|m ms] rs B L G; simpl in L; try discriminate;
      [intros []|].
    cbn [combine] in B, G |- *. inversion B as [|? r ? rs' Hb B']; subst. cbn [combine forallb] in G.
    apply andb_true_iff in G. destruct G as [G1 G2].
    cbn [combine ez map]. destruct v as [y|], m as [p|], r as [w|]; simpl in Hb; try contradiction; cbn [gl option_map].
    - intros [E|Hin]; [|eapply IH; eauto].
      injection E as -> <-. unfold gen_infinite in G1. destruct Hb as (Hl & Hv & _).
      pose (sg' := fun x => Z.max 0 (sg x)).
      assert (Hsg : forall x, (0 <= rho sg' x)%Q).
      { intros u. unfold rho, sg'. change 0%Q with (inject_Z 0). apply injZ_le. lia. }
      pose proof (always_ge_sound _ _ (rho sg') Hsg G1) as H.
      rewrite (zev_spec sg' w Hl), (zev_spec sg' _ (var_expr_lin x)), zev_var in H. apply (proj1 (injZ_le _ _)) in H.
      rewrite (zev_ext sg sg' w); [change (sg' x) with (Z.max 0 (sg x)) in H; lia|].
      intros u Hu. unfold sg'. pose proof (Hs u (Hv u Hu)). lia.
    - intros Hin. eapply IH; eauto.
    - intros Hin. eapply IH; eauto.
  Qed.

  Lemma nd_get_In {N} (l : ndict N) x z : nd_get x l = Some z -> In (x, z) l.
  Proof.
    induction l as [|[y w] l IH]; simpl; [discriminate|].
    destruct (Nat.eqb x y) eqn:Ex; [|auto]. apply Nat.eqb_eq in Ex. intros [= ->]. subst. auto.
  Qed.
  Lemma galign_pos vm ns x z : Forall2 galign vm ns -> In (x, z) (gl (combine vm ns)) -> 1 <= z.
  Proof.
    induction 1 as [|[y p] n l ns Ha _ IH]; simpl; [tauto|].
    destruct y, p, n; simpl in Ha; try contradiction; auto. intros [E|Hin]; auto.
    injection E as _ ->. exact Ha.
  Qed.

  Section Gen.
    Variables (sh : dir * list Sym * list Sym) (q : St) (vars : list (option nat)) (mins : list (option Q))
              (result : list (option val)) (inf : bool) (num : val) (seen : ndict val).
    Hypothesis D : gen_ok T M Rp sh q vars mins result inf num seen.
    Notation vm := (combine vars mins).
    Notation V := (flat_map ovar vars).

    Lemma vm_fst : map fst vm = vars.
    Proof. apply combine_fst. apply (go_len _ _ _ _ _ _ _ _ _ _ _ D). Qed.
    Lemma len_result : length result = length vm.
    Proof. pose proof (go_blocks _ _ _ _ _ _ _ _ _ _ _ D) as H. symmetry. eapply Forall2_length'; eauto. Qed.

    Definition agl (cur : list (option Z)) := gl (combine vm cur).

    Lemma cur_cnt cur : Forall2 galign vm cur -> map (cnt (sgl (agl cur))) vm = cur.
    Proof.
      intros Al. apply gl_cnt; auto. intros x z Hx. apply nd_get_nodup; auto.
      unfold agl. rewrite (gl_vars V vm result cur) by (auto; apply (go_blocks _ _ _ _ _ _ _ _ _ _ _ D)).
      rewrite vm_fst. apply (go_nodup _ _ _ _ _ _ _ _ _ _ _ D).
    Qed.
    Lemma cur_get cur x : Forall2 galign vm cur -> In x V ->
      exists z, nd_get x (agl cur) = Some z /\ sgl (agl cur) x = z.
    Proof.
      intros Al Hx. unfold sgl. destruct (nd_get x (agl cur)) as [z|] eqn:E; eauto.
      apply nd_get_none_iff in E. unfold agl in E.
      rewrite (gl_vars V vm result cur) in E by (auto; apply (go_blocks _ _ _ _ _ _ _ _ _ _ _ D)).
      rewrite vm_fst in E. contradiction.
    Qed.
    Lemma cur_fits cur : Forall2 galign vm cur ->
      (forall x p z, In (Some x, Some (inject_Z p), Some z) (combine vm cur) -> p <= z) ->
      fits vm (sgl (agl cur)).
    Proof.
      intros Al H x p Hi. destruct (gl_in _ _ _ _ Al Hi) as (z & H1 & H2).
      unfold sgl. rewrite (nd_get_nodup (agl cur) x z); [eauto| |exact H2].
      unfold agl. rewrite (gl_vars V vm result cur) by (auto; apply (go_blocks _ _ _ _ _ _ _ _ _ _ _ D)).
      rewrite vm_fst. apply (go_nodup _ _ _ _ _ _ _ _ _ _ _ D).
    Qed.

    Lemma next_ok sg : length vars = sh_len sh -> fits vm sg -> Forall2 galign vm (ez sg result).
    Proof.
      intros Hlen F. destruct (go_run _ _ _ _ _ _ _ _ _ _ _ D sg F) as [W _].
      apply (zfit vm result V _ sg); auto; [apply (go_blocks _ _ _ _ _ _ _ _ _ _ _ D)|].
      pose proof (wf_pos M _ W) as P. rewrite nums_mk in P; auto.
      unfold ez. rewrite map_length, len_result, <- Hlen. rewrite combine_length.
      pose proof (go_len _ _ _ _ _ _ _ _ _ _ _ D). lia.
    Qed.

    Lemma eval_result cur : Forall2 galign vm cur ->
      map_opt (inf_opt (fun v => match v_subst v (asgl (agl cur)) with Some w => v_int w | None => None end)) result
        = Some (ez (sgl (agl cur)) result).
    Proof.
      intros Al.
      assert (G : Forall (fun r => match r with Some w => lv w /\ incl (v_variables w) V | None => True end) result).
      { pose proof (go_blocks _ _ _ _ _ _ _ _ _ _ _ D) as H. clear -H. induction H as [|[x p] r l l' Hb Hf IH]; constructor; auto.
        destruct x, p, r; simpl in Hb; try contradiction; auto; try tauto.
        destruct Hb as [_ ->]. split; [apply VS_lin|]. intros y []. }
      revert G. generalize result. intros rl G.
      induction G as [|r rs Hr _ IH]; [reflexivity|]. cbn [map_opt ez map]. unfold ez in IH. rewrite IH.
      destruct r as [w|]; [|reflexivity]. destruct Hr as [Hl Hv].
      destruct (v_subst_num w (asgl (agl cur)) Hl (asgl_lin _)) as (z & Ez).
      { intros x Hx. destruct (cur_get cur x Al (Hv x Hx)) as (z & E & _). exists z. now rewrite asgl_get, E. }
      cbn [inf_opt]. rewrite Ez. cbn [v_int option_map]. rewrite q_int_inj. cbn [option_map]. do 3 f_equal.
      rewrite <- (zev_VS (sgl (agl cur)) z). eapply zev_subst; [exact Hl|exact Ez|].
      intros x Hx. destruct (cur_get cur x Al (Hv x Hx)) as (y & E & E'). rewrite asgl_get, E. simpl option_map. cbv beta iota.
      split; [apply VS_lin|]. now rewrite zev_VS.
    Qed.
    Lemma eval_num cur : Forall2 galign vm cur ->
      v_subst num (asgl (agl cur)) = Some (VS (inject_Z (zev (sgl (agl cur)) num))).
    Proof.
      intros Al. pose proof (go_steps _ _ _ _ _ _ _ _ _ _ _ D) as Hl. pose proof (go_svars _ _ _ _ _ _ _ _ _ _ _ D) as Hv.
      destruct (v_subst_num num (asgl (agl cur)) Hl (asgl_lin _)) as (z & Ez).
      { intros x Hx. destruct (cur_get cur x Al (Hv x Hx)) as (z & E & _). exists z. now rewrite asgl_get, E. }
      rewrite Ez. do 3 f_equal.
      rewrite <- (zev_VS (sgl (agl cur)) z). eapply zev_subst; [exact Hl|exact Ez|].
      intros x Hx. destruct (cur_get cur x Al (Hv x Hx)) as (y & E & E'). rewrite asgl_get, E. simpl option_map. cbv beta iota.
      split; [apply VS_lin|]. now rewrite zev_VS.
    Qed.

    (** what has been done after some repetitions *)
    Definition reached (c : config) (cur : list (option Z)) (acc : Z) (last : option subs) : Prop :=
      Forall2 galign vm cur /\
      match last with
      | None => acc = 0 /\ Rp (den (mk sh cur) q) c
      | Some asg => exists prev, asg = asgl (agl prev) /\ Forall2 galign vm prev /\
          wf (mk sh cur) /\ 0 < acc /\ exists c', steps T (Z.to_nat acc) c = Some c' /\ Rp (den (mk sh cur) q) c' /\
          zseen_ok T c acc (map (fun kv => (fst kv, acc - (zev (sgl (agl prev)) num - snd kv)))
                                (ed (sgl (agl prev)) seen))
      end.

    Hypothesis Hlen : length vars = sh_len sh.

    Lemma gen_reps_ok c fuel : forall cur acc last, reached c cur acc last ->
      exists g, gen_reps fuel vars mins result num cur acc last = Some g /\
        match g with
        | GInf => nonhalting T c /\ (forall x, In x (map fst seen) <-> recurs T c x) /\ only_in T c (map fst seen)
        | GDone cur acc last => reached c cur acc last
        end.
    Proof.
      induction fuel as [|fuel IH]; intros cur acc last Hr; cbn [gen_reps];
        pose proof (proj1 Hr) as Al;
        destruct (fits_min_ok V _ _ (go_blocks _ _ _ _ _ _ _ _ _ _ _ D) cur Al []) as [->|[-> Hf]]; eauto.
      rewrite app_nil_l. fold (agl cur). rewrite eval_num, eval_result by exact Al.
      cbn [v_int]. rewrite q_int_inj. set (sg := sgl (agl cur)).
      pose proof (cur_fits cur Al Hf) as F. fold sg in F.
      pose proof (go_run _ _ _ _ _ _ _ _ _ _ _ D sg F) as Tr.
      unfold sg at 1 in Tr. rewrite cur_cnt in Tr by exact Al.
      assert (Hc : exists c1 , steps T (Z.to_nat acc) c = Some c1 /\ Rp (den (mk sh cur) q) c1 /\ 0 <= acc).
      { destruct Hr as [_ Hr]. destruct last as [asg|].
        - destruct Hr as (prev & _ & _ & _ & Hp & c' & E & R & _). exists c'. auto with zarith.
        - destruct Hr as [-> R]. exists c. simpl. auto with zarith. }
      destruct Hc as (c1 & E1 & R1 & Hacc).
      destruct (znums_eqb (ez sg result) cur) eqn:Ez.
      - (* the same tape again *)
        apply znums_eqb_eq in Ez. eexists. split; [reflexivity|]. rewrite Ez in Tr.
        destruct (forever q (fun t => t = mk sh cur) (map fst seen)) with (t := mk sh cur) (c := c1) as (H1 & H2 & H3); auto.
        + intros t ->. exists (mk sh cur), (zev sg num), (ed sg seen). split; [reflexivity|]. split; [apply ed_keys|exact Tr].
        + split; [eapply nonhalting_steps; eauto|]. split; [intros x; rewrite H2; symmetry; eapply recurs_steps; eauto|].
          intros j e Ej. destruct (Nat.lt_ge_cases j (Z.to_nat acc)) as [L|L].
          * destruct Hr as [_ Hr]. destruct last as [asg|]; [|destruct Hr as [-> _]; simpl in L; lia].
            destruct Hr as (prev & _ & _ & _ & _ & c' & E' & _ & Z1).
            pose proof (proj2 (zseen_in _ _ _ _ _ E' Z1 (st e)) (ex_intro _ j (ex_intro _ e (conj L (conj Ej eq_refl))))) as X.
            rewrite map_map in X. cbn [fst] in X. rewrite ed_keys in X. exact X.
          * apply (H3 (j - Z.to_nat acc)%nat e). replace j with (Z.to_nat acc + (j - Z.to_nat acc))%nat in Ej by lia.
            rewrite steps_add, E1 in Ej. exact Ej.
      - apply IH. split; [now apply next_ok|]. exists cur. split; [reflexivity|]. split; [exact Al|].
        destruct Tr as [W Tr]. destruct (Tr c1 R1) as (P & c2 & E2 & R2 & Z2). split; [exact W|]. split; [lia|].
        exists c2. split; [rewrite Z2Nat.inj_add by lia; now apply (steps_compose T _ _ c c1 c2)|].
        split; [exact R2|]. fold sg.
        replace (map (fun kv => (fst kv, acc + zev sg num - (zev sg num - snd kv))) (ed sg seen))
          with (map (fun kv => (fst kv, acc + snd kv)) (ed sg seen))
          by (apply map_ext; intros [a b]; simpl; f_equal; lia).
        destruct Hr as [_ Hr]. destruct last as [asg|].
        + destruct Hr as (prev & _ & _ & _ & _ & c' & E' & _ & Z1). assert (c' = c1) by congruence. subst c'.
          eapply zseen_extend; eauto; try lia. rewrite map_map. cbn [fst]. now rewrite !ed_keys.
        + destruct Hr as [-> _]. simpl in E1. injection E1 as <-. rewrite Z.add_0_l.
          replace (map (fun kv => (fst kv, 0 + snd kv)) (ed sg seen)) with (ed sg seen); auto.
          rewrite <- (map_id (ed sg seen)) at 1. apply map_ext. intros [a b]. reflexivity.
    Qed.

    (** every variable keeps or raises its count *)
    Lemma gen_inf_step sg : inf = true -> (forall x, In x V -> 0 <= sg x) -> fits vm sg ->
      exists sg', (forall x, In x V -> 0 <= sg' x) /\ fits vm sg' /\ ez sg result = map (cnt sg') vm.
    Proof.
      intros Hi Hs F. pose proof (next_ok sg Hlen F) as Al.
      pose proof (go_inf _ _ _ _ _ _ _ _ _ _ _ D Hi) as G.
      exists (sgl (agl (ez sg result))). rewrite cur_cnt by exact Al.
      assert (Hge : forall x z, In (x, z) (agl (ez sg result)) -> sg x <= z).
      { intros x z. apply (inf_grow V); auto; [apply (go_blocks _ _ _ _ _ _ _ _ _ _ _ D)|apply (go_len _ _ _ _ _ _ _ _ _ _ _ D)]. }
      assert (Hsg : forall x, In x V -> sg x <= sgl (agl (ez sg result)) x).
      { intros x Hx. destruct (cur_get _ x Al Hx) as (z & E & ->). apply Hge. now apply nd_get_In. }
      split; [intros x Hx; specialize (Hs x Hx); specialize (Hsg x Hx); lia|]. split; [|reflexivity].
      intros x z Hin. pose proof (F x z Hin).
      enough (In x V) by (specialize (Hsg x ltac:(assumption)); lia).
      rewrite <- vm_fst. apply in_flat_map. exists (Some x). split; [|simpl; auto].
      apply in_map_iff. exists (Some x, Some (inject_Z z)). auto.
    Qed.

    Lemma apply_gen_ok max_num_reps t c : (0 < max_num_reps)%nat -> Forall2 galign vm (nums t) -> shape t = sh ->
      Rp (den t q) c ->
      exists o, apply_general_rule max_num_reps vars mins result inf num seen t = Some o /\ out_ok t q c o.
    Proof.
      intros Hmax Al Sh R. unfold apply_general_rule. destruct max_num_reps as [|m] eqn:Em; [lia|]. rewrite <- Em.
      assert (Et : mk sh (nums t) = t) by (subst sh; apply mk_self).
      pose proof (fits_min_ok V _ _ (go_blocks _ _ _ _ _ _ _ _ _ _ _ D) (nums t) Al []) as Hfit.
      assert (Hinf : inf = true -> (forall x p z, In (Some x, Some (inject_Z p), Some z) (combine vm (nums t)) -> p <= z) ->
                nonhalting T c /\ (forall x, In x (map fst seen) <-> recurs T c x) /\ only_in T c (map fst seen)).
      { intros Hi Hf.
        apply (forever q (fun t => exists sg, (forall x, In x V -> 0 <= sg x) /\ fits vm sg /\ t = mk sh (map (cnt sg) vm)) (map fst seen))
          with (t := t); auto.
        - intros t' (sg & Hs & F & ->). destruct (gen_inf_step sg Hi Hs F) as (sg' & Hs' & F' & E').
          exists (mk sh (map (cnt sg') vm)), (zev sg num), (ed sg seen).
          split; [eauto|]. split; [apply ed_keys|]. rewrite <- E'. now apply (go_run _ _ _ _ _ _ _ _ _ _ _ D).
        - exists (sgl (agl (nums t))). rewrite cur_cnt by exact Al. split; [|split; [now apply cur_fits|now symmetry]].
          intros x Hx. destruct (cur_get _ x Al Hx) as (z & E & ->).
          enough (1 <= z) by lia. apply (galign_pos vm (nums t) x); [exact Al|]. now apply nd_get_In. }
      assert (Hreach : reached c (nums t) 0 None).
      { split; [exact Al|]. split; [reflexivity|]. rewrite Et. exact R. }
      assert (Hrest : exists o,
          match gen_reps max_num_reps vars mins result num (nums t) 0 None with
          | None => None
          | Some GInf => Some (Some (PInf (recur_states seen)))
          | Some (GDone _ _ None) => Some None
          | Some (GDone cur acc (Some last)) =>
            let tape := drop_zeros (mk (shape t) cur) in
            match seen with
            | [] => Some (Some (PApply tape acc None))
            | _ =>
              match seen_map_opt (fun ls => match v_subst (v_sub (VS (inject_Z acc)) (v_sub num ls)) last with
                                            | Some v => v_int v
                                            | None => None
                                            end) seen with
              | Some d => Some (Some (PApply tape acc (Some d)))
              | None => None
              end
            end
          end = Some o /\ out_ok t q c o).
      { destruct (gen_reps_ok c max_num_reps _ _ _ Hreach) as (g & -> & Hg).
        destruct g as [|cur acc last].
        - eexists. split; [reflexivity|]. simpl. destruct Hg as [H1 H2]. split; [exact H1|]. now apply recur_states_ok.
        - destruct last as [asg|]; [|eexists; split; [reflexivity|exact I]].
          destruct Hg as [_ (prev & -> & Alp & W & P & c' & E & R' & Zs)]. cbv zeta. rewrite Sh.
          rewrite drop_zeros_wf by exact W.
          assert (Hres : wf (mk sh cur) /\ ct_dir (mk sh cur) = ct_dir t /\ 0 < acc /\
                    exists c', steps T (Z.to_nat acc) c = Some c' /\ Rp (den (mk sh cur) q) c').
          { split; [exact W|]. split; [rewrite <- Sh; reflexivity|]. split; [exact P|eauto]. }
          destruct Hres as (H1 & H2 & H3 & H4).
          destruct (go_seen _ _ _ _ _ _ _ _ _ _ _ D) as (Dl & Dk & Dw).
          rewrite (seen_eval V seen (fun ls => v_sub (VS (inject_Z acc)) (v_sub num ls)) (asgl (agl prev))
                     (sgl (agl prev)) (fun z => acc - (zev (sgl (agl prev)) num - z))); auto.
          + destruct seen as [|kv s] eqn:Es; (eexists; split; [reflexivity|]); cbn [out_ok result_ok].
            * repeat (split; [assumption|]). exact I.
            * repeat (split; [assumption|]). split; [|exact Zs]. rewrite map_map. cbn [fst]. rewrite ed_keys. exact Dk.
          + apply asgl_lin.
          + intros x Hx. destruct (cur_get prev x Alp Hx) as (z & Ez & Ez'). exists z. now rewrite asgl_get, Ez.
          + pose proof (go_steps _ _ _ _ _ _ _ _ _ _ _ D) as Ds. pose proof (go_svars _ _ _ _ _ _ _ _ _ _ _ D) as Dv.
            intros v Hv Hvi. split; [|split].
            * apply v_sub_lin; [apply VS_lin|]. now apply v_sub_lin.
            * intros x Hx. apply v_sub_vars in Hx. destruct Hx as [[]|Hx]. apply v_sub_vars in Hx. destruct Hx; auto.
            * rewrite zev_sub; [|apply VS_lin|now apply v_sub_lin]. rewrite zev_sub by assumption. now rewrite zev_VS. }
      destruct Hfit as [->|[-> Hf]].
      - rewrite andb_false_r. exact Hrest.
      - rewrite andb_true_r. destruct inf; [|exact Hrest]. eexists. split; [reflexivity|].
        destruct (Hinf eq_refl Hf) as [H1 H2]. simpl. split; [exact H1|]. now apply recur_states_ok.
    Qed.
  End Gen.

  (** ** any rule, and the prover *)
  Lemma apply_rule_ok max_num_reps next k r t q c : (0 < max_num_reps)%nat -> rule_ok T M Rp k r -> wf t ->
    strip_config z_is1 q t = k -> Rp (den t q) c ->
    exists nx o, apply_rule max_num_reps next r t = Some (nx, o) /\ out_ok t q c o.
  Proof.
    intros Hmax (sh & q0 & Al & H) W Ek R. destruct (Al t q W Ek) as (-> & Sh & Ha).
    destruct r as [inits diffs num seen|vars mins result inf num seen]; cbn [apply_rule].
    - eapply apply_diff_ok; eauto.
    - destruct (apply_gen_ok sh q0 vars mins result inf num seen H) with (max_num_reps := max_num_reps) (t := t) (c := c)
        as (o & E & Ho); auto.
      + rewrite <- Sh, <- nums_len. pose proof (Forall2_length' _ _ _ Ha) as L. rewrite combine_length in L.
        pose proof (go_len _ _ _ _ _ _ _ _ _ _ _ H). lia.
      + rewrite E. simpl. eauto.
  Qed.

  (** stored rules are true; the past configurations do not matter *)
  Definition rules_ok (p : prover (Sym:=Sym) (St:=St)) : Prop :=
    forall k r, In (k, r) (p_rules p) -> rule_ok T M Rp k r.

  Lemma kget_in {A} k (d : list (key * A)) a : kget M k d = Some a -> In (k, a) d.
  Proof.
    induction d as [|[k' b] d IH]; simpl; [discriminate|]. destruct (key_eqb M k k') eqn:E; auto.
    intros [= <-]. apply (key_eqb_eq M (ms_sym_eq _ _ _ _ _ MS) (ms_st_eq _ _ _ _ _ MS)) in E. subst. auto.
  Qed.
  Lemma kset_in {A} k (a : A) d k' a' : In (k', a') (kset M k a d) -> (k', a') = (k, a) \/ In (k', a') d.
  Proof.
    induction d as [|[k2 b] d IH]; simpl; [intuition|]. destruct (key_eqb M k k2) eqn:E; simpl.
    - apply (key_eqb_eq M (ms_sym_eq _ _ _ _ _ MS) (ms_st_eq _ _ _ _ _ MS)) in E. subst. intuition.
    - intuition.
  Qed.

  Lemma log_config_delta p loop pc : log_config p loop = (true, pc) ->
    exists l, last_loop pc = Some l /\ (1 <= loop - l)%nat.
  Proof.
    unfold log_config. destruct (last_loop p) as [l|] eqn:El; [|discriminate].
    destruct (last_delta p) as [[|d]|]; try discriminate.
    destruct (Nat.eqb (S d) (loop - l)) eqn:E; [|discriminate]. intros [= <-]. apply Nat.eqb_eq in E.
    exists l. split; [exact El|lia].
  Qed.

  Theorem lap_ok max_prover_configs max_num_reps : (0 < max_num_reps)%nat ->
    prover_ok T M Rp (log_and_apply M max_prover_configs max_num_reps) rules_ok.
  Proof.
    intros Hmax p tape q loops c Hp W R. unfold log_and_apply.
    set (k := strip_config z_is1 q tape).
    destruct (kget M k (p_rules p)) as [r|] eqn:Ek.
    - apply kget_in in Ek. pose proof (Hp _ _ Ek) as Hr.
      destruct (apply_rule_ok max_num_reps (p_next p) k r tape q c Hmax Hr W eq_refl R) as (nx & o & -> & Ho).
      destruct o as [res|]; do 2 eexists; (split; [reflexivity|]); split; try exact Hp; try exact Ho; exact I.
    - destruct (log_config _ loops) as [prove pc'] eqn:El. destruct prove.
      + destruct (log_config_delta _ _ _ El) as (l & El' & Hd). rewrite El'. cbn [p_next p_rules p_past].
        destruct (prove_rule_ok Gd T M Rp halted MS SW PU (p_next p) tape q c (loops - l) W R Hd) as (nx & o & -> & Ho).
        destruct o as [r|]; [|do 2 eexists; split; [reflexivity|]; split; [exact Hp|exact I]].
        destruct (apply_rule_ok max_num_reps nx k r tape q c Hmax Ho W eq_refl R) as (nx' & o & -> & Hres).
        do 2 eexists. split; [reflexivity|]. split; [|destruct o; [exact Hres|exact I]].
        intros k' r' Hin. cbn [p_rules add_rule] in Hin. apply kset_in in Hin.
        destruct Hin as [[= -> ->]|Hin]; [exact Ho|now apply Hp].
      + destruct (Nat.ltb _ _); do 2 eexists; (split; [reflexivity|]); split; try exact Hp; exact I.
  Qed.
End Apply.
