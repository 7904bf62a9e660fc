(** * The closed tape language tests always answer *)
Require Import ZArith List Lia Bool Arith.
From Verif Require Import Spec_TM M_Turing_Machine P_Stream P_SimLimited P_Macro P_Repeat M_Tape M_Simulator M_Settings
  P_Tape P_Simulator P_Settings M_CTL P_CTL.
Import ListNotations.
Open Scope nat_scope.

(** ** a finite set of symbols and states that transitions stay in *)
Definition stays {Sym St} (M : machine Sym St) (syms : list Sym) (sts : list St) : Prop :=
  forall x q d, In x syms -> In q sts -> exists t, m_trans M x q d = Some t /\
    (t_cond t = RUNNING -> In (t_sym t) syms /\ In (t_state t) sts).

(** every tape over the symbols is a tape of the machine *)
Definition all_denoted {Sym St} (Rp : dcfg Sym St -> config -> Prop) (syms : list Sym) (sts : list St) : Prop :=
  forall C, (forall i, In (d_l C i) syms /\ In (d_r C i) syms) -> In (d_st C) sts -> exists c, Rp C c.

Lemma simple_denoted n m : all_denoted (Rsimple n m) (seq 0 m) (map SRun (seq 0 n)).
Proof.
  intros C H1 H2. apply in_map_iff in H2 as (q & Eq & Hq). apply in_seq in Hq.
  exists (Cfg q (match d_dir C with R => 0 | L => -1 end)%Z
            (fun z => if (0 <=? z)%Z then d_r C (Z.to_nat z) else d_l C (Z.to_nat (- z - 1)))).
  unfold Rsimple. cbn [st hd tp]. split; [now symmetry|]. split; [lia|]. split.
  - intros i. destruct (H1 i) as [A B]. apply in_seq in A, B. lia.
  - exists 0%Z. split; [destruct (d_dir C); reflexivity|]. intros i. split.
    + destruct (Z.leb_spec 0 (0 + Z.of_nat i)); [f_equal; lia|lia].
    + destruct (Z.leb_spec 0 (0 - 1 - Z.of_nat i)); [lia|f_equal; lia].
Qed.

Lemma words_inv {A} (al : list A) k : forall w, In w (words al k) -> length w = k /\ forall a, In a w -> In a al.
Proof.
  induction k as [|k IH]; intros w; cbn [words].
  - intros [<-|[]]. split; [reflexivity|intros a []].
  - intros H. apply in_flat_map in H as (v & Hv & H). apply in_map_iff in H as (a & <- & Ha).
    destruct (IH _ Hv) as [L1 L2]. cbn. split; [now f_equal|]. intros b [<-|Hb]; auto.
Qed.

Section Layers.
  Context {Sym St : Type} (M : machine Sym St) (Rp : dcfg Sym St -> config -> Prop).
  Variables (syms : list Sym) (sts : list St).
  Hypothesis AD : all_denoted Rp syms sts.

  Lemma sapp_in l s : (forall a, In a l -> In a syms) -> (forall i : nat, In (s i) syms) -> forall i, In (sapp l s i) syms.
  Proof. intros H1 H2 i. unfold sapp. destruct (nth_error l i) eqn:E; [apply H1; eapply nth_error_In; eauto|auto]. Qed.

  Lemma block_denoted k : 0 < k ->
    all_denoted (Rblock M Rp k) (words syms k) (flat_map (fun s => Plain s :: map (OffsetStart s) (seq 0 k)) sts).
  Proof.
    intros Hk C H1 H2. apply in_flat_map in H2 as (s & Hs & H2).
    assert (WL : forall i, length (d_l C i) = k /\ forall a, In a (d_l C i) -> In a syms).
    { intros i. apply words_inv, H1. }
    assert (WR : forall i, length (d_r C i) = k /\ forall a, In a (d_r C i) -> In a syms).
    { intros i. apply words_inv, H1. }
    assert (EX : forall f, (forall i, length (f i) = k /\ forall a, In a (f i) -> In a syms) -> forall i, In (expr M k f i) syms).
    { intros f Hf i. unfold expr. apply (Hf (i / k)). apply nth_In. rewrite (proj1 (Hf _)). apply Nat.mod_upper_bound. lia. }
    assert (EL : forall f, (forall i, length (f i) = k /\ forall a, In a (f i) -> In a syms) -> forall i, In (expl M k f i) syms).
    { intros f Hf i. apply (EX (fun i => rev (f i))). intros j. rewrite rev_length. split; [apply Hf|].
      intros a Ha. apply (Hf j). now apply in_rev. }
    destruct (AD (flatten M k C)) as (c & Hc).
    - unfold flatten, win. cbn [d_l d_r].
      assert (F : forall a, In a (facing C) -> In a syms) by (unfold facing; destruct (d_dir C); [apply WL|apply WR]).
      intros i. split; apply sapp_in.
      + intros a Ha. apply F. apply in_rev in Ha. rewrite <- (firstn_skipn (winpos (d_dir C) (block_pos k (d_st C) (d_dir C))) (facing C)).
        apply in_or_app. now left.
      + unfold block_lo. destruct (d_dir C); apply EL; intros j; [apply (WL (S j))|apply WL].
      + intros a Ha. apply F. rewrite <- (firstn_skipn (winpos (d_dir C) (block_pos k (d_st C) (d_dir C))) (facing C)).
        apply in_or_app. now right.
      + unfold block_ro. destruct (d_dir C); apply EX; intros j; [apply WR|apply (WR (S j))].
    - cbn [flatten win d_st]. destruct H2 as [<-|H2]; [exact Hs|]. apply in_map_iff in H2 as (off & <- & _). exact Hs.
    - exists c. split; [intros i; split; [apply WL|apply WR]|]. split; [|exact Hc].
      destruct H2 as [<-|H2]; [exact I|]. apply in_map_iff in H2 as (off & <- & Ho). apply in_seq in Ho. lia.
  Qed.

  Lemma back_denoted : all_denoted (Rback Rp) syms (flat_map (fun s => map (Back s) syms) sts).
  Proof.
    intros C H1 H2. apply in_flat_map in H2 as (s & Hs & H2). apply in_map_iff in H2 as (b & Eb & Hb).
    apply AD.
    - unfold unback. rewrite <- Eb. destruct (d_dir C); cbn [d_l d_r b_sym]; intros i.
      + split; [apply H1|]. destruct i; [exact Hb|apply H1].
      + split; [|apply H1]. destruct i; [exact Hb|apply H1].
    - unfold unback. rewrite <- Eb. destruct (d_dir C); exact Hs.
  Qed.
End Layers.

Lemma stays_of {Sym St} Gd T (M : machine Sym St) Rp halted syms sts :
  msound Gd T M Rp halted -> finite_rel Rp syms sts -> all_denoted Rp syms sts -> stays M syms sts.
Proof.
  intros MS FR AD x q d Hx Hq.
  destruct (AD (DCfg (fun _ => x) (fun _ => x) q d)) as (c & Hc); [intros i; split; exact Hx|exact Hq|].
  assert (F : facing (DCfg (fun _ => x) (fun _ => x) q d) = x) by (unfold facing; cbn; destruct d; reflexivity).
  pose proof (ms_total _ _ _ _ _ MS _ _ Hc) as Ht. rewrite F in Ht. cbn [d_st d_dir] in Ht.
  destruct (m_trans M x q d) as [t|] eqn:E; [|congruence]. exists t. split; [reflexivity|]. intros Ec.
  pose proof (ms_step _ _ _ _ _ MS _ _ t Hc) as Hs. rewrite F in Hs. specialize (Hs E).
  unfold outcome in Hs. rewrite Ec in Hs. destruct Hs as (_ & _ & _ & c' & _ & R).
  destruct (FR _ _ R) as [F1 F2]. unfold apply_t in F1, F2. destruct (t_dir t); cbn [d_l d_r d_st] in F1, F2;
    (split; [|exact F2]).
  - exact (proj2 (F1 O)).
  - exact (proj1 (F1 O)).
Qed.

(** ** tables over finitely many keys and symbols *)
Section Finite.
  Context {Sym St : Type}.
  Variable M : machine Sym St.
  Hypothesis SE : forall a b, m_sym_eqb M a b = true <-> a = b.
  Hypothesis QE : forall a b, m_st_eqb M a b = true <-> a = b.
  Variables (syms : list Sym) (sts : list St).
  Notation tabl := (list (St * dir * row Sym)).

  Definition row_in (r : row Sym) : Prop := forall d s, incl (at_ r d s) syms.
  Definition tab_in (t : tabl) : Prop :=
    NoDup (map fst t) /\ forall q d r, In ((q, d), r) t -> In q sts /\ row_in r.
  Definition ups_in (us : list (@update Sym)) : Prop := forall d s xs, In (d, s, xs) us -> incl xs syms.

  Lemma put_row_in d s xs r : row_in r -> incl xs syms -> row_in (put_row M d s xs r).
  Proof.
    intros H1 H2 d' s' y Hy. apply (put_row_at M SE) in Hy as [Hy|(_ & _ & Hy)]; [exact (H1 _ _ _ Hy)|auto].
  Qed.
  Lemma empty_row_in : row_in (Row no_sets no_sets).
  Proof. intros d s y Hy. destruct d, s; destruct Hy. Qed.

  Lemma tab_update_keys k d s xs t k' : In k' (map fst (tab_update M k d s xs t)) <-> k' = k \/ In k' (map fst t).
  Proof.
    induction t as [|[k1 r1] t IH]; cbn [tab_update]; [cbn; intuition|].
    destruct (key_eqb M k k1) eqn:E; cbn [map In fst].
    - apply (key_eqb_eq M QE) in E. subst. intuition.
    - rewrite IH. intuition.
  Qed.
  Lemma tab_update_in k d s xs t : tab_in t -> In (fst k) sts -> incl xs syms -> tab_in (tab_update M k d s xs t).
  Proof.
    intros [N H] Hk Hx. split.
    - clear H. induction t as [|[k1 r1] t IH]; cbn [tab_update]; [repeat constructor; intros []|].
      inversion N as [|? ? N1 N2]; subst. destruct (key_eqb M k k1) eqn:E; cbn [map fst]; [exact N|].
      constructor; [|auto]. intros I. apply tab_update_keys in I as [->|I]; [|contradiction].
      rewrite (key_eqb_refl M QE) in E. discriminate.
    - intros q d' r. induction t as [|[k1 r1] t IH]; cbn [tab_update].
      + intros [Q|[]]. assert (k = (q, d')) as -> by congruence. assert (r = put_row M d s xs (Row no_sets no_sets)) as -> by congruence.
        split; [exact Hk|]. apply put_row_in; [apply empty_row_in|exact Hx].
      + inversion N as [|? ? N1 N2]; subst. destruct (key_eqb M k k1) eqn:E.
        * intros [Q|Q]; [|apply (H q d'); now right].
          destruct (H (fst k1) (snd k1) r1) as [A B]; [left; now destruct k1|].
          assert (k1 = (q, d')) as -> by congruence. assert (r = put_row M d s xs r1) as -> by congruence.
          split; [exact A|now apply put_row_in].
        * intros [Q|Q]; [apply (H q d'); now left|]. apply IH; auto. intros q1 d1 r2 I1; apply (H q1 d1); now right.
  Qed.
  Lemma tab_updates_in k us : forall t, tab_in t -> In (fst k) sts -> ups_in us -> tab_in (tab_updates M k us t).
  Proof.
    unfold tab_updates. induction us as [|[[d s] xs] us IH]; intros t H Hk U; cbn [fold_left]; [exact H|].
    apply IH; [|exact Hk|intros ? ? ? I; eapply U; right; exact I].
    apply tab_update_in; auto. apply (U d s). now left.
  Qed.
  Lemma row_updates_in r : row_in r -> ups_in (row_updates r).
  Proof.
    intros H d s xs I. unfold row_updates in I. apply in_map_iff in I as ([d' s'] & Q & _). cbn [fst snd] in Q.
    injection Q as <- <- <-. apply (H d' s').
  Qed.
  Lemma tab_union_in t : forall new, tab_in new -> tab_in t -> tab_in (tab_union M new t).
  Proof.
    unfold tab_union. induction t as [|[[q d] r] t IH]; intros new H1 [N H2]; cbn [fold_left]; [exact H1|].
    cbn [map fst] in N. inversion N as [|? ? N1 N2]; subst. destruct (H2 q d r ltac:(now left)) as [A B].
    apply IH; [apply tab_updates_in; auto; now apply row_updates_in|]. split; [exact N2|]. intros q1 d1 r1 I1; apply (H2 q1 d1); now right.
  Qed.

  Lemma find_of k r t : NoDup (map fst t) -> In (k, r) t -> find_row M k t = Some r.
  Proof.
    induction t as [|[k1 r1] t IH]; cbn [map fst find_row]; intros N I; [destruct I|].
    inversion N as [|? ? N1 N2]; subst. destruct I as [Q|I].
    - assert (k1 = k) as -> by congruence. rewrite (key_eqb_refl M QE). congruence.
    - destruct (key_eqb M k k1) eqn:E; [|auto]. apply (key_eqb_eq M QE) in E. subst k1. exfalso. apply N1.
      apply in_map_iff. now exists (k, r).
  Qed.
  Lemma tsub_tab_sub a b : NoDup (map fst a) -> tsub M a b -> tab_sub M a b = true.
  Proof.
    intros N S. unfold tab_sub. apply forallb_forall. intros [k r] I. cbn [fst snd].
    destruct (S k r (find_of k r a N I)) as (r' & -> & H). now apply (row_sub_ok M SE).
  Qed.

  (** the facts a table states *)
  Definition fact := ((St * dir) * option (dir * slot * Sym))%type.
  Definition holds (t : tabl) (f : fact) : bool :=
    match find_row M (fst f) t with
    | None => false
    | Some r => match snd f with
                | None => true
                | Some (d, s, x) => existsb (m_sym_eqb M x) (at_ r d s)
                end
    end.
  Definition all_facts : list fact :=
    list_prod (list_prod sts [L; R])
      (None :: map Some (list_prod (list_prod [L; R] [SA; SB; SC]) syms)).
  Definition known (t : tabl) : nat := length (filter (holds t) all_facts).

  Lemma all_facts_length : length all_facts = 2 * length sts * S (6 * length syms).
  Proof.
    assert (E : length (map Some (list_prod (list_prod [L; R] [SA; SB; SC]) syms)) = 6 * length syms)
      by (rewrite map_length, prod_length; reflexivity).
    unfold all_facts, fact. rewrite prod_length, prod_length. cbn [length] in *. lia.
  Qed.
  Lemma filter_le {A} (p : A -> bool) l : length (filter p l) <= length l.
  Proof. induction l as [|a l IH]; cbn; [lia|]. destruct (p a); cbn; lia. Qed.
  Lemma known_bound t : known t <= 2 * length sts * S (6 * length syms).
  Proof. unfold known. rewrite <- all_facts_length. apply filter_le. Qed.

  Lemma filter_mono {A} (p q : A -> bool) l : (forall a, p a = true -> q a = true) ->
    length (filter p l) <= length (filter q l) /\
    (length (filter p l) = length (filter q l) -> forall a, In a l -> q a = true -> p a = true).
  Proof.
    intros H. induction l as [|a l [IH1 IH2]]; cbn [filter]; [split; [lia|intros _ a []]|].
    specialize (H a). destruct (p a) eqn:P, (q a) eqn:Q; cbn [length]; try (specialize (H eq_refl); discriminate).
    - split; [lia|]. intros E b [<-|Hb]; [auto|apply IH2; [lia|exact Hb]].
    - split; [lia|]. intros E. exfalso. lia.
    - split; [lia|]. intros E b [<-|Hb]; [congruence|apply IH2; [lia|exact Hb]].
  Qed.
  Lemma tsub_holds a b f : tsub M a b -> holds a f = true -> holds b f = true.
  Proof.
    intros S. unfold holds. destruct (find_row M (fst f) a) as [r|] eqn:E; [|discriminate].
    destruct (S _ _ E) as (r' & -> & H). destruct (snd f) as [[[d s] x]|]; [|auto].
    rewrite !(existsb_in M SE). apply H.
  Qed.
  Lemma known_step a b : tab_in a -> tab_in b -> tsub M a b -> tab_eqb M a b = false -> known a < known b.
  Proof.
    intros [NA HA] [NB HB] S E. destruct (filter_mono (holds a) (holds b) all_facts) as [H1 H2]; [intros f; now apply tsub_holds|].
    fold (known a) (known b) in H1, H2. destruct (Nat.eq_dec (known a) (known b)) as [Q|]; [|lia]. exfalso.
    specialize (H2 Q). unfold tab_eqb in E. rewrite (tsub_tab_sub a b NA S), (tsub_tab_sub b a NB) in E; [discriminate|].
    intros k r F. pose proof (find_in M QE _ _ _ F) as I. destruct k as [q d]. destruct (HB q d r I) as [Hq Hr].
    assert (KI : In (q, d) (list_prod sts [L; R])) by (apply in_prod; [exact Hq|destruct d; cbn; auto]).
    assert (F1 : holds a ((q, d), None) = true).
    { apply H2; [apply in_prod; [exact KI|now left]|]. unfold holds. cbn [fst snd]. now rewrite F. }
    unfold holds in F1. cbn [fst snd] in F1. destruct (find_row M (q, d) a) as [ra|] eqn:Fa; [|discriminate].
    exists ra. split; [reflexivity|]. intros d' s x Hx.
    assert (F2 : holds a ((q, d), Some (d', s, x)) = true).
    { apply H2.
      - apply in_prod; [exact KI|]. right. apply in_map, in_prod; [apply in_prod; [destruct d'; cbn; auto|destruct s; cbn; auto]|].
        apply (Hr d' s x Hx).
      - unfold holds. cbn [fst snd]. rewrite F. now apply (existsb_in M SE). }
    unfold holds in F2. cbn [fst snd] in F2. rewrite Fa in F2. now apply (existsb_in M SE) in F2.
  Qed.

  (** ** the loop *)
  Variable A : @algorithm Sym St.
  Hypothesis ST : stays M syms sts.
  Hypothesis LOOKS : forall r d b x, row_in r -> In (b, x) (alg_looks A r d) -> In x syms.
  Hypothesis ADDS : forall r d b t, row_in r -> In (t_sym t) syms -> ups_in (alg_adds A r d b t).

  Lemma look_all_total q d r ls : forall new, In q sts -> row_in r -> (forall b x, In (b, x) ls -> In x syms) -> tab_in new ->
    look_all M A q d r ls new = Some None \/ exists new', look_all M A q d r ls new = Some (Some new') /\ tab_in new'.
  Proof.
    induction ls as [|[b x] ls IH]; intros new Hq Hr Hl Hn; cbn [look_all]; [right; eauto|].
    destruct (ST x q d (Hl b x ltac:(now left)) Hq) as (t & -> & Ht).
    destruct (t_cond t) eqn:Ec; cbn [cond_eqb]; try (now left). destruct (Ht eq_refl) as [H1 H2].
    apply IH; auto; [intros b' x' I; apply (Hl b'); now right|]. apply tab_updates_in; auto.
  Qed.
  Lemma sweep_total table : forall new, (forall q d r, In ((q, d), r) table -> In q sts /\ row_in r) -> tab_in new ->
    sweep M A table new = Some None \/ exists new', sweep M A table new = Some (Some new') /\ tab_in new'.
  Proof.
    induction table as [|[[q d] r] table IH]; intros new Ht Hn; cbn [sweep]; [right; eauto|].
    destruct (Ht q d r ltac:(now left)) as [Hq Hr].
    destruct (look_all_total q d r (alg_looks A r d) new Hq Hr (fun b x => LOOKS r d b x Hr) Hn) as [->|(new' & -> & Hn')]; [now left|].
    apply IH; [intros q1 d1 r1 I1; apply (Ht q1 d1); now right|exact Hn'].
  Qed.

  Lemma ctl_loop_total fuel : forall table new iters, tab_in new -> (forall t, table = Some t -> tab_in t /\ tsub M t new) ->
    2 * length sts * S (6 * length syms) < fuel + match table with Some t => S (known t) | None => 0 end ->
    exists b i, ctl_loop M A fuel table new iters = Some (b, i).
  Proof.
    induction fuel as [|fuel IH]; intros table new iters Hn Ht Hf; cbn [ctl_loop].
    - destruct table as [t|]; [|cbn in Hf; lia].
      destruct (tab_eqb M t new) eqn:E; [eauto|]. exfalso.
      destruct (Ht t eq_refl) as [T1 T2]. pose proof (known_step t new T1 Hn T2 E). pose proof (known_bound new). lia.
    - destruct (match table with Some t => tab_eqb M t new | None => false end) eqn:E; [eauto|].
      destruct (sweep_total new [] (proj2 Hn) ltac:(split; [constructor|intros ? ? ? []])) as [->|(next & -> & Hx)]; [eauto|].
      apply IH; [now apply tab_union_in| |].
      + intros t Q. assert (t = new) as -> by congruence. split; [exact Hn|]. intros k r F. now apply (tab_union_old M SE QE).
      + destruct table as [t|]; [|cbn [known] in *; lia].
        destruct (Ht t eq_refl) as [T1 T2]. pose proof (known_step t new T1 Hn T2 E). lia.
  Qed.
End Finite.

(** ** the four algorithms stay in the set *)
Section Algs.
  Context {Sym St : Type}.
  Variable M : machine Sym St.
  Variable syms : list Sym.
  Hypothesis B0 : In (m_init_sym M) syms.

  Lemma ctl_looks_in k r d b x : row_in syms r -> In (b, x) (alg_looks (@ctl_alg Sym St M k) r d) -> In x syms.
  Proof.
    intros H. destruct k; cbn [ctl_alg alg_looks ctl1 ctl2 ctl3 ctl4]; intros I;
      repeat (apply in_app_or in I as [I|I]);
      try (apply in_map_iff in I as (y & Q & I); injection Q as _ <-).
    - exact (H d SA _ I).
    - destruct I as [Q|[]]. injection Q as _ <-. exact B0.
    - exact (H d SA _ I).
    - exact (H d SB _ I).
    - exact (H d SA _ I).
    - exact (H d SA _ I).
    - exact (H d SB _ I).
  Qed.
  Lemma ctl_adds_in k r d b (t : transition Sym St) : row_in syms r -> In (t_sym t) syms ->
    ups_in syms (alg_adds (ctl_alg M k) r d b t).
  Proof.
    intros H Ht d' s xs I.
    assert (One : forall x, In x syms -> incl [x] syms) by (intros x Hx y [<-|[]]; exact Hx).
    assert (Side : forall e s', incl (get s' (side e r)) syms) by (intros e s'; apply (H e s')).
    pose proof (Side L SA). pose proof (Side L SB). pose proof (Side L SC).
    pose proof (Side R SA). pose proof (Side R SB). pose proof (Side R SC). cbn [get side] in *.
    destruct k; cbn [ctl_alg alg_adds ctl1 ctl2 ctl3 ctl4] in I; unfold both2 in I;
      destruct b; try destruct (dir_eqb _ _); cbn in I;
      repeat (destruct I as [I|I]; [injection I as <- <- <-; first [now apply One|apply (Side _ SA)|apply (Side _ SB)|apply (Side _ SC)|assumption]|]);
      destruct I.
  Qed.

  Hypothesis SE : forall a b, m_sym_eqb M a b = true <-> a = b.
  Lemma ctl_init_in k h : h <> [] -> (forall b, In b h -> In (k_sym b) syms) ->
    exists s, ctl_init M k h = Some s /\ forall sl, incl (get sl s) syms.
  Proof.
    intros NE H.
    assert (IM : incl (map k_sym h) syms) by (intros x Hx; apply in_map_iff in Hx as (b & <- & Hb); auto).
    assert (U : forall l xs, incl l syms -> incl xs syms -> incl (union M l xs) syms).
    { intros l xs H1 H2 y Hy. apply (union_in M SE) in Hy as [Hy|Hy]; auto. }
    assert (Nil : incl (@nil Sym) syms) by (intros x []).
    assert (One : forall x, In x syms -> incl [x] syms) by (intros x Hx y [<-|[]]; exact Hx).
    assert (PX : forall i b, pyix h i = Some b -> In (k_sym b) syms).
    { intros i b E. apply H. apply in_rev. eapply nth_error_In. exact E. }
    assert (RL : forall (l : list (blk Z Sym)) b, In b (removelast l) -> In b l).
    { induction l as [|a l IH]; cbn; [tauto|]. destruct l; [intros x []|]. intros x [<-|I]; [now left|right; auto]. }
    assert (RS : forall (l : list Sym) b, In b (removelast l) -> In b l).
    { induction l as [|a l IH]; cbn; [tauto|]. destruct l; [intros x []|]. intros x [<-|I]; [now left|right; auto]. }
    destruct k; cbn [ctl_init].
    - eexists. split; [reflexivity|]. intros [| |]; cbn [get init1 set_a set_b set_c]; auto.
    - eexists. split; [reflexivity|]. unfold init2.
      set (l := match pyix h 1 with Some b => _ | None => _ end).
      assert (Hl : incl l syms).
      { assert (incl (map k_sym (removelast h)) syms).
        { intros x Hx. apply in_map_iff in Hx as (b & <- & Hb). apply H, RL, Hb. }
        unfold l. destruct (pyix h 1) as [b|] eqn:E; [|assumption]. destruct (_ && _); [|assumption].
        apply incl_app; [assumption|]. apply One, (PX 1 b E). }
      clearbody l. intros [| |]; cbn [get set_a set_b set_c]; auto.
      + apply U; [exact Nil|]. intros x Hx. apply Hl, RS, Hx.
      + destruct l as [|a l]; apply One; [exact B0|]. apply Hl.
        destruct (exists_last (l := a :: l) ltac:(discriminate)) as (l' & y & EY). rewrite EY, last_last. apply in_or_app. right. now left.
    - destruct h as [|top h]; [congruence|]. cbn [init3]. eexists. split; [reflexivity|].
      assert (incl (union M [] (map k_sym (tl (removelast (top :: h))))) syms).
      { apply U; [exact Nil|]. intros x Hx. apply in_map_iff in Hx as (b & <- & Hb). apply H, RL.
        destruct (removelast (top :: h)); [destruct Hb|now right]. }
      assert (In (k_sym top) syms) by (apply H; now left).
      intros [| |]; cbn [get set_a set_b set_c]; auto. destruct (more 1 top); auto.
    - unfold init4. set (n := length h).
      set (a := union M [] _).
      assert (Ha : incl a syms).
      { apply U; [exact Nil|]. intros x Hx. apply in_map_iff in Hx as (b & <- & Hb). apply H. apply in_rev in Hb.
        apply in_rev. rewrite <- (firstn_skipn 2 (rev h)). apply in_or_app. now right. }
      clearbody a.
      destruct (pyix h 0) as [p0|] eqn:E0.
      2:{ exfalso. unfold pyix in E0. apply nth_error_None in E0. rewrite rev_length in E0. destruct h; [congruence|cbn in E0; lia]. }
      destruct (pyix h 1) as [p1|] eqn:E1.
      2:{ eexists. split; [reflexivity|]. intros [| |]; cbn [get set_a set_b set_c]; eauto. }
      assert (L1 : 1 < length h).
      { assert (N : nth_error (rev h) 1 <> None) by (unfold pyix in E1; congruence). apply nth_error_Some in N. now rewrite rev_length in N. }
      destruct ((3 <=? n) || more 1 p1) eqn:E3.
      2:{ eexists. split; [reflexivity|]. intros [| |]; cbn [get set_a set_b set_c]; eauto. }
      destruct (more 1 p1) eqn:E4.
      + destruct (nth_error h 1) as [b|] eqn:Eb; [|apply nth_error_None in Eb; lia].
        eexists. split; [reflexivity|].
        assert (incl (match pyix h 2 with Some p2 => union M a [k_sym p2] | None => a end) syms).
        { destruct (pyix h 2) as [p2|] eqn:E5; [|exact Ha]. apply U; [exact Ha|]. apply One, (PX 2 _ E5). }
        intros [| |]; cbn [get set_a set_b set_c]; eauto. destruct (more 2 b); eauto.
      + rewrite orb_false_r in E3. apply Nat.leb_le in E3. unfold n in E3.
        destruct (pyix h 2) as [p2|] eqn:E5.
        2:{ exfalso. unfold pyix in E5. apply nth_error_None in E5. rewrite rev_length in E5. lia. }
        destruct (nth_error h 2) as [b|] eqn:Eb; [|apply nth_error_None in Eb; lia].
        eexists. split; [reflexivity|]. intros [| |]; cbn [get set_a set_b set_c]; eauto. destruct (more 1 b); eauto.
  Qed.
End Algs.

(** ** a whole test *)
Lemma hwf_syms {Sym} (b0 : Sym) h syms : hwf b0 h -> (forall i, In (hden b0 h i) syms) ->
  h <> [] /\ forall b, In b h -> In (k_sym b) syms.
Proof.
  induction 1 as [|s z h P W IH]; intros H.
  - split; [discriminate|]. intros b [<-|[]]. exact (H O).
  - split; [discriminate|]. cbn [hden k_num k_sym] in H. intros b [<-|I].
    + specialize (H O). unfold sapp in H. destruct (Z.to_nat z) as [|j] eqn:E; [lia|]. exact H.
    + apply IH; [|exact I]. intros i. specialize (H (Z.to_nat z + i)). unfold sapp in H.
      rewrite (proj2 (nth_error_None _ _)) in H by (rewrite repeat_length; lia).
      rewrite repeat_length in H. now replace (Z.to_nat z + i - Z.to_nat z) with i in H by lia.
Qed.

Lemma test_machine_total Gd T {Sym St} (M : machine Sym St) Rp halted syms sts k fuel cutoff :
  msound Gd T M Rp halted -> seen_wf M Rp -> finite_rel Rp syms sts -> all_denoted Rp syms sts ->
  2 * length sts * S (6 * length syms) < fuel ->
  exists b i, test_machine M k fuel cutoff = Some (b, i).
Proof.
  intros MS SW FR AD F. unfold test_machine.
  destruct (drive_ok Gd T M Rp halted MS SW no_prover _ (no_prover_ok T M Rp) (Seek cutoff) tt (sim_init zops M) I
              (sim_init_ok Gd T M Rp halted MS)) as ([] & s & Ed & _ & H).
  cbn [drive] in Ed. rewrite Ed.
  destruct (s_op s) eqn:Eo; cbn [cond_eqb]; eauto.
  unfold sim_ok in H. rewrite Eo in H. destruct H as ((W1 & W2) & Di & P & (c & Ec & HR) & _).
  destruct (FR _ _ HR) as [F1 F2]. cbn [tden d_l d_r d_st] in F1, F2.
  destruct (FR _ _ (ms_init _ _ _ _ _ MS)) as [F3 _]. pose proof (proj1 (F3 O)) as B0. cbn [d_l] in B0.
  destruct (hwf_syms _ _ syms W1 (fun i => proj1 (F1 i))) as [N1 I1].
  destruct (hwf_syms _ _ syms W2 (fun i => proj2 (F1 i))) as [N2 I2].
  pose proof (ms_sym_eq _ _ _ _ _ MS) as SE. pose proof (ms_st_eq _ _ _ _ _ MS) as QE.
  destruct (ctl_init_in M syms B0 SE k _ N1 I1) as (l & -> & Hl).
  destruct (ctl_init_in M syms B0 SE k _ N2 I2) as (r & -> & Hr).
  apply (ctl_loop_total M SE QE syms sts (ctl_alg M k) (stays_of Gd T M Rp halted syms sts MS FR AD)).
  - intros r' d b x. apply (ctl_looks_in M syms B0).
  - intros r' d b t. apply (ctl_adds_in M syms B0).
  - split; [repeat constructor; intros []|]. intros q d r' [Q|[]]. injection Q as <- <- <-. split; [exact F2|].
    intros [|] sl; [apply Hl|apply Hr].
  - intros t Q. discriminate.
  - lia.
Qed.

(** how many symbols and states the machine of a setting has *)
Definition num_symbols (m : nat) (g : setting) : nat :=
  match g with SBase | SBack _ => m | SBlock k _ _ | SBlockBack k _ _ _ => m ^ k end.
Definition num_states (n m : nat) (g : setting) : nat :=
  match g with
  | SBase => n | SBack _ => n * m | SBlock k _ _ => n * S k | SBlockBack k _ _ _ => n * S k * m ^ k
  end.

Lemma flat_map_const_length {A B} (f : A -> list B) c l : (forall a, length (f a) = c) -> length (flat_map f l) = length l * c.
Proof. intros H. induction l as [|a l IH]; cbn; [reflexivity|]. rewrite app_length, H, IH. reflexivity. Qed.

Lemma test_CTL_total n m tab g k fuel cutoff : wf_ttable n m tab -> valid_setting g = true ->
  2 * num_states n m g * S (6 * num_symbols m g) < fuel ->
  exists b i, test_CTL tab g k fuel cutoff = Some (b, i).
Proof.
  intros W V F. assert (NF : forall P : Prop, False -> P) by tauto.
  pose proof (simple_msound False n m tab W) as MS.
  pose proof (simple_seen_wf n m tab W) as SW.
  pose proof (simple_finite n m) as FR. pose proof (simple_denoted n m) as AD.
  destruct g as [|j off mb|mk|j off mb mk]; cbn [test_CTL with_machine num_states num_symbols valid_setting] in *.
  - apply (test_machine_total _ _ _ _ _ _ _ k fuel cutoff MS SW FR AD). rewrite map_length, !seq_length. exact F.
  - apply andb_true_iff in V as [V1 V2]. apply Nat.ltb_lt in V1, V2.
    apply (test_machine_total _ _ _ _ _ _ _ k fuel cutoff
      (block_msound _ _ _ _ _ j V1 off V2 mb MS (NF _) SW) (block_seen_wf _ _ _ _ _ j off mb MS (NF _) SW)
      (block_finite _ _ _ _ FR j V1) (block_denoted _ _ _ _ AD j V1)).
    rewrite words_length, seq_length, (flat_map_const_length _ (S j)), map_length, seq_length; [exact F|].
    intros a. cbn. now rewrite map_length, seq_length.
  - apply (test_machine_total _ _ _ _ _ _ _ k fuel cutoff
      (back_msound _ _ _ _ _ mk MS (NF _) SW) (back_seen_wf _ _ _ _ _ mk MS (NF _) SW)
      (back_finite _ _ _ FR) (back_denoted _ _ _ AD)).
    rewrite (flat_map_const_length _ m), map_length, !seq_length; [exact F|].
    intros a. now rewrite map_length, seq_length.
  - apply andb_true_iff in V as [V1 V2]. apply Nat.ltb_lt in V1, V2.
    pose proof (block_msound _ _ _ _ _ j V1 off V2 mb MS (NF _) SW) as MS2.
    pose proof (block_seen_wf _ _ _ _ _ j off mb MS (NF _) SW) as SW2.
    apply (test_machine_total _ _ _ _ _ _ _ k fuel cutoff
      (back_msound _ _ _ _ _ mk MS2 (NF _) SW2) (back_seen_wf _ _ _ _ _ mk MS2 (NF _) SW2)
      (back_finite _ _ _ (block_finite _ _ _ _ FR j V1)) (back_denoted _ _ _ (block_denoted _ _ _ _ AD j V1))).
    rewrite (flat_map_const_length _ (m ^ j)), (flat_map_const_length _ (S j)), words_length, map_length, !seq_length; [exact F| |].
    + intros a. cbn. now rewrite map_length, seq_length.
    + intros a. now rewrite map_length, words_length, seq_length.
Qed.
