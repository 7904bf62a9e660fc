(** * The CTL algorithms: a closed table contains every later configuration *)
Require Import ZArith List Lia Bool Arith.
From Verif Require Import Spec_TM M_Turing_Machine M_Tape M_Simulator M_Settings P_Stream P_SimLimited
  P_Macro P_Tape P_Simulator P_Settings M_CTL.
Import ListNotations.

Lemma opp_opp d : opp (opp d) = d.
Proof. destruct d; reflexivity. Qed.

Section Table.
  Context {Sym St : Type}.
  Variable M : machine Sym St.
  Hypothesis SE : forall a b, m_sym_eqb M a b = true <-> a = b.
  Hypothesis QE : forall a b, m_st_eqb M a b = true <-> a = b.
  Notation tabl := (list (St * dir * row Sym)).

  Lemma existsb_in x l : existsb (m_sym_eqb M x) l = true <-> In x l.
  Proof.
    rewrite existsb_exists. split.
    - intros (y & I & E). apply SE in E. now subst.
    - intros I. exists x. split; [exact I|now apply SE].
  Qed.
  Lemma set_add_in l x y : In y (set_add M l x) <-> In y l \/ y = x.
  Proof.
    unfold set_add. destruct (existsb (m_sym_eqb M x) l) eqn:E.
    - apply existsb_in in E. split; [auto|]. intros [H| ->]; assumption.
    - rewrite in_app_iff. cbn. intuition congruence.
  Qed.
  Lemma set_update_in xs : forall l y, In y (set_update M l xs) <-> In y l \/ In y xs.
  Proof.
    unfold set_update. induction xs as [|x xs IH]; intros l y; cbn [fold_left In]; [tauto|].
    rewrite IH, set_add_in. intuition congruence.
  Qed.
  Lemma set_sub_ok a b : set_sub M a b = true <-> incl a b.
  Proof.
    unfold set_sub. rewrite forallb_forall. split; intros H x I; specialize (H x I); now apply existsb_in.
  Qed.

  Definition at_ (r : row Sym) (d : dir) (s : slot) : list Sym := get s (side d r).
  Definition rsub (a b : row Sym) : Prop := forall d s, incl (at_ a d s) (at_ b d s).

  Lemma put_row_at d s xs r d' s' y :
    In y (at_ (put_row M d s xs r) d' s') <-> In y (at_ r d' s') \/ (d' = d /\ s' = s /\ In y xs).
  Proof.
    unfold at_. destruct d, s, d', s'; cbn; rewrite ?set_update_in; intuition congruence.
  Qed.
  Lemma rsub_refl r : rsub r r. Proof. intros d s. apply incl_refl. Qed.
  Lemma rsub_trans a b c : rsub a b -> rsub b c -> rsub a c.
  Proof. intros H K d s. eapply incl_tran; [apply H|apply K]. Qed.
  Lemma put_row_sub d s xs r : rsub r (put_row M d s xs r).
  Proof. intros d' s' y I. apply put_row_at. auto. Qed.
  Lemma row_sub_ok a b : row_sub M a b = true <-> rsub a b.
  Proof.
    unfold row_sub. rewrite forallb_forall. split.
    - intros H d s. apply set_sub_ok. apply (H (d, s)). destruct d, s; cbn; tauto.
    - intros H [d s] _. apply set_sub_ok. apply (H d s).
  Qed.

  Lemma key_eqb_eq a b : key_eqb M a b = true <-> a = b.
  Proof.
    destruct a as [q d], b as [q' d']. unfold key_eqb. cbn. rewrite andb_true_iff, QE, dir_eqb_eq.
    intuition congruence.
  Qed.
  Lemma key_eqb_refl a : key_eqb M a a = true. Proof. now apply key_eqb_eq. Qed.
  Lemma key_eqb_neq a b : a <> b -> key_eqb M a b = false.
  Proof. intros N. destruct (key_eqb M a b) eqn:E; [|reflexivity]. apply key_eqb_eq in E. contradiction. Qed.

  Lemma find_in k r t : find_row M k t = Some r -> In (k, r) t.
  Proof.
    induction t as [|[k' r'] t IH]; cbn [find_row]; [discriminate|].
    destruct (key_eqb M k k') eqn:E.
    - apply key_eqb_eq in E. intros Q. left. congruence.
    - intros Q. right. auto.
  Qed.

  (** [t'] extends [t] *)
  Definition tsub (t t' : tabl) : Prop :=
    forall k r, find_row M k t = Some r -> exists r', find_row M k t' = Some r' /\ rsub r r'.
  Lemma tsub_refl t : tsub t t.
  Proof. intros k r E. exists r. split; [exact E|apply rsub_refl]. Qed.
  Lemma tsub_trans a b c : tsub a b -> tsub b c -> tsub a c.
  Proof.
    intros H K k r E. destruct (H k r E) as (r1 & E1 & S1). destruct (K k r1 E1) as (r2 & E2 & S2).
    exists r2. split; [exact E2|]. eapply rsub_trans; eassumption.
  Qed.

  Lemma find_update k d s xs t k' :
    find_row M k' (tab_update M k d s xs t) =
    if key_eqb M k' k
    then Some (put_row M d s xs (match find_row M k t with Some r => r | None => Row no_sets no_sets end))
    else find_row M k' t.
  Proof.
    induction t as [|[k1 r1] t IH]; cbn [tab_update find_row].
    - destruct (key_eqb M k' k); reflexivity.
    - destruct (key_eqb M k k1) eqn:E1; cbn [find_row].
      + apply key_eqb_eq in E1. subst k1. destruct (key_eqb M k' k); reflexivity.
      + destruct (key_eqb M k' k1) eqn:E2.
        * apply key_eqb_eq in E2. subst k1. rewrite (key_eqb_neq k' k); [reflexivity|].
          intros ->. rewrite key_eqb_refl in E1. discriminate.
        * exact IH.
  Qed.
  Lemma tab_update_sub k d s xs t : tsub t (tab_update M k d s xs t).
  Proof.
    intros k' r E. rewrite find_update. destruct (key_eqb M k' k) eqn:K.
    - apply key_eqb_eq in K. subst k'. rewrite E. eexists. split; [reflexivity|apply put_row_sub].
    - exists r. split; [exact E|apply rsub_refl].
  Qed.
  Lemma tab_update_has k d s xs t :
    exists r, find_row M k (tab_update M k d s xs t) = Some r /\ incl xs (at_ r d s).
  Proof.
    rewrite find_update, key_eqb_refl. eexists. split; [reflexivity|]. intros y I. apply put_row_at. auto.
  Qed.
  Lemma tab_updates_sub k us : forall t, tsub t (tab_updates M k us t).
  Proof.
    unfold tab_updates. induction us as [|[[d s] xs] us IH]; intros t; cbn [fold_left]; [apply tsub_refl|].
    eapply tsub_trans; [apply tab_update_sub|apply IH].
  Qed.
  (** what a row contains after updates *)
  Definition has_updates (r : row Sym) (us : list (@update Sym)) : Prop :=
    forall d s xs, In (d, s, xs) us -> incl xs (at_ r d s).
  Lemma tab_updates_has k us : forall t, us <> [] ->
    exists r, find_row M k (tab_updates M k us t) = Some r /\ has_updates r us.
  Proof.
    induction us as [|[[d s] xs] us IH]; intros t N; [congruence|].
    unfold tab_updates. cbn [fold_left].
    destruct (tab_update_has k d s xs t) as (r & E & I).
    destruct (tab_updates_sub k us (tab_update M k d s xs t) k r E) as (r' & E' & S').
    exists r'. split; [exact E'|]. intros d' s' xs' [Q|Q].
    - assert (d' = d) as -> by congruence. assert (s' = s) as -> by congruence. assert (xs' = xs) as -> by congruence.
      eapply incl_tran; [exact I|apply S'].
    - destruct us as [|u us]; [destruct Q|].
      destruct (IH (tab_update M k d s xs t) ltac:(congruence)) as (r2 & E2 & H2).
      unfold tab_updates in E2, E'. assert (r2 = r') as -> by congruence. exact (H2 _ _ _ Q).
  Qed.
  Lemma has_updates_sub r r' us : rsub r r' -> has_updates r us -> has_updates r' us.
  Proof. intros S H d s xs I. eapply incl_tran; [exact (H _ _ _ I)|apply S]. Qed.

  Lemma tab_union_sub table : forall new, tsub new (tab_union M new table).
  Proof.
    unfold tab_union. induction table as [|kr table IH]; intros new; cbn [fold_left]; [apply tsub_refl|].
    eapply tsub_trans; [apply tab_updates_sub|apply IH].
  Qed.
  Lemma tab_union_old table : forall new k r, find_row M k table = Some r ->
    exists r', find_row M k (tab_union M new table) = Some r' /\ rsub r r'.
  Proof.
    unfold tab_union. induction table as [|[k1 r1] table IH]; intros new k r; cbn [find_row fold_left]; [discriminate|].
    destruct (key_eqb M k k1) eqn:E.
    - apply key_eqb_eq in E. subst k1. intros Q. assert (r1 = r) as -> by congruence. cbn [fst snd].
      destruct (tab_updates_has k (row_updates r) new ltac:(discriminate)) as (r2 & E2 & H2).
      destruct (tab_union_sub table _ k r2 E2) as (r3 & E3 & H3). exists r3. split; [exact E3|].
      eapply rsub_trans; [|exact H3]. intros d s. apply (H2 d s). unfold row_updates.
      apply in_map_iff. exists (d, s). split; [reflexivity|]. destruct d, s; cbn; tauto.
    - intros Q. apply IH, Q.
  Qed.

  Lemma tab_sub_ok a b : tab_sub M a b = true -> tsub a b.
  Proof.
    unfold tab_sub. rewrite forallb_forall. intros H k r E. specialize (H _ (find_in _ _ _ E)). cbn in H.
    destruct (find_row M k b) as [r'|]; [|discriminate]. exists r'. split; [reflexivity|]. now apply row_sub_ok.
  Qed.

  (** ** one iteration *)
  Variable A : @algorithm Sym St.
  Hypothesis NE : forall r d b t, alg_adds A r d b t <> [].

  Definition covered (q : St) (d : dir) (r : row Sym) (new : tabl) (b : bool) (x : Sym) : Prop :=
    exists t r', m_trans M x q d = Some t /\ t_cond t = RUNNING /\
      find_row M (t_state t, t_dir t) new = Some r' /\ has_updates r' (alg_adds A r d b t).
  Lemma covered_sub q d r new new' b x : tsub new new' -> covered q d r new b x -> covered q d r new' b x.
  Proof.
    intros S (t & r' & E & C & F & H). destruct (S _ _ F) as (r2 & F2 & S2).
    exists t, r2. split; [exact E|]. split; [exact C|]. split; [exact F2|]. eapply has_updates_sub; eassumption.
  Qed.

  Lemma look_all_ok q d r ls : forall new new', look_all M A q d r ls new = Some (Some new') ->
    tsub new new' /\ forall b x, In (b, x) ls -> covered q d r new' b x.
  Proof.
    induction ls as [|[b x] ls IH]; intros new new'; cbn [look_all].
    - intros E. assert (new' = new) as -> by congruence. split; [apply tsub_refl|intros ? ? []].
    - destruct (m_trans M x q d) as [t|] eqn:Et; [|discriminate].
      destruct (t_cond t) eqn:Ec; cbn [cond_eqb]; try discriminate. intros E.
      destruct (IH _ _ E) as [S H]. split; [eapply tsub_trans; [apply tab_updates_sub|exact S]|].
      intros b' x' [Q|Q]; [|auto]. assert (b' = b) as -> by congruence. assert (x' = x) as -> by congruence.
      destruct (tab_updates_has (t_state t, t_dir t) (alg_adds A r d b t) new (NE r d b t)) as (r1 & F1 & H1).
      destruct (S _ _ F1) as (r2 & F2 & S2). exists t, r2.
      split; [exact Et|]. split; [exact Ec|]. split; [exact F2|]. eapply has_updates_sub; eassumption.
  Qed.
  Lemma sweep_ok table : forall new new', sweep M A table new = Some (Some new') ->
    tsub new new' /\ forall q d r, In ((q, d), r) table -> forall b x, In (b, x) (alg_looks A r d) -> covered q d r new' b x.
  Proof.
    induction table as [|[[q d] r] table IH]; intros new new'; cbn [sweep].
    - intros E. assert (new' = new) as -> by congruence. split; [apply tsub_refl|intros ? ? ? []].
    - destruct (look_all M A q d r (alg_looks A r d) new) as [[new1|]|] eqn:E1; [|discriminate|discriminate].
      intros E. destruct (IH _ _ E) as [S H]. destruct (look_all_ok _ _ _ _ _ _ E1) as [S1 H1].
      split; [eapply tsub_trans; eassumption|]. intros q' d' r' [Q|Q]; [|apply H, Q].
      assert (q' = q) as -> by congruence. assert (d' = d) as -> by congruence. assert (r' = r) as -> by congruence.
      intros b x I. eapply covered_sub; [exact S|]. auto.
  Qed.

  Definition closed (t : tabl) : Prop :=
    forall q d r, find_row M (q, d) t = Some r -> forall b x, In (b, x) (alg_looks A r d) -> covered q d r t b x.

  Lemma ctl_loop_ok fuel : forall table new iters n, ctl_loop M A fuel table new iters = Some (true, n) ->
    (forall t, table = Some t -> exists next, sweep M A t [] = Some (Some next) /\ new = tab_union M next t) ->
    exists t, closed t /\ tsub new t.
  Proof.
    induction fuel as [|fuel IH]; intros table new iters n; cbn [ctl_loop];
      (destruct (match table with Some t => tab_eqb M t new | None => false end) eqn:E).
    1,3: intros _ H; destruct table as [t|]; [|discriminate]; destruct (H t eq_refl) as (next & Sw & EQ);
      unfold tab_eqb in E; apply andb_true_iff in E as [_ E]; apply tab_sub_ok in E; exists t; split; [|exact E];
      intros q d r F b x I; destruct (sweep_ok _ _ _ Sw) as [_ C];
      apply (covered_sub q d r next); [|apply (C q d r (find_in _ _ _ F) b x I)];
      eapply tsub_trans; [|exact E]; rewrite EQ; apply tab_union_sub.
    - discriminate.
    - destruct (sweep M A new []) as [[next|]|] eqn:Sw; [|discriminate|discriminate].
      intros R _. destruct (IH _ _ _ _ R) as (t & C & S).
      + intros t Q. assert (t = new) as -> by congruence. exists next. auto.
      + exists t. split; [exact C|]. eapply tsub_trans; [|exact S]. intros k r F. apply (tab_union_old new next k r F).
  Qed.
End Table.

(** ** closed tables and runs *)
Definition strm {Sym St} (d : dir) (C : dcfg Sym St) : nat -> Sym := match d with L => d_l C | R => d_r C end.

Lemma apply_same {Sym St} (C : dcfg Sym St) a q d : d = d_dir C ->
  strm d (apply_t C a q d) = stl (strm d C) /\ strm (opp d) (apply_t C a q d) = scons a (strm (opp d) C).
Proof. intros ->. unfold apply_t. destruct (d_dir C); cbn; auto. Qed.
Lemma apply_back {Sym St} (C : dcfg Sym St) a q d : d = opp (d_dir C) ->
  strm d (apply_t C a q d) = strm d C /\ strm (opp d) (apply_t C a q d) = scons a (stl (strm (opp d) C)).
Proof. intros ->. unfold apply_t. destruct (d_dir C); cbn; auto. Qed.
Lemma facing_strm {Sym St} (C : dcfg Sym St) : facing C = strm (d_dir C) C 0%nat.
Proof. unfold facing, strm. destruct (d_dir C); reflexivity. Qed.

Section Runs.
  Context {Sym St : Type}.
  Variables (Gd : Prop) (T : table) (M : machine Sym St) (Rp : dcfg Sym St -> config -> Prop)
            (halted : St -> Prop).
  Hypothesis MS : msound Gd T M Rp halted.
  Notation SE := (ms_sym_eq _ _ _ _ _ MS).
  Notation QE := (ms_st_eq _ _ _ _ _ MS).
  Variable A : @algorithm Sym St.
  Hypothesis NE : forall r d b t, alg_adds A r d b t <> [].
  (** what one side of the tape looks like, given its sets *)
  Variable pat : sets Sym -> (nat -> Sym) -> Prop.
  Definition matches (r : row Sym) (C : dcfg Sym St) : Prop := forall d, pat (side d r) (strm d C).
  Hypothesis STEP : forall r C, matches r C -> exists b, In (b, facing C) (alg_looks A r (d_dir C)) /\
    forall t r', has_updates r' (alg_adds A r (d_dir C) b t) ->
      matches r' (apply_t C (t_sym t) (t_state t) (t_dir t)).

  Lemma closed_nonhalting t r C c : closed M A t -> find_row M (d_st C, d_dir C) t = Some r -> matches r C ->
    Rp C c -> nonhalting T c.
  Proof.
    intros CL F MM R.
    apply (nonhalting_invariant T (fun c => exists C r, find_row M (d_st C, d_dir C) t = Some r /\ matches r C /\ Rp C c)).
    - clear r C c F MM R. intros c (C & r & F & MM & R).
      destruct (STEP r C MM) as (b & I & NX).
      destruct (CL _ _ _ F _ _ I) as (tr & r' & Et & Ec & F' & H').
      pose proof (ms_step _ _ _ _ _ MS C c tr R Et) as O. unfold outcome in O. rewrite Ec in O.
      destruct O as (_ & P & _ & c' & E & R'). exists (t_steps tr), c'. split; [exact P|]. split; [exact E|].
      exists (apply_t C (t_sym tr) (t_state tr) (t_dir tr)), r'.
      split; [|split; [apply NX, H'|exact R']].
      assert (EQ : d_st (apply_t C (t_sym tr) (t_state tr) (t_dir tr)) = t_state tr /\
                   d_dir (apply_t C (t_sym tr) (t_state tr) (t_dir tr)) = t_dir tr)
        by (unfold apply_t; destruct (t_dir tr); cbn; auto).
      destruct EQ as [-> ->]. exact F'.
    - exists C, r. auto.
  Qed.

  Hypothesis MONO : forall a b f, (forall s, incl (get s a) (get s b)) -> pat a f -> pat b f.

  Lemma loop_nonhalting fuel r0 C c n :
    ctl_loop M A fuel None [((d_st C, d_dir C), r0)] 0 = Some (true, n) -> matches r0 C -> Rp C c ->
    nonhalting T c.
  Proof.
    intros E MM R. destruct (ctl_loop_ok M SE QE A NE fuel None _ _ _ E) as (t & CL & S); [discriminate|].
    destruct (S (d_st C, d_dir C) r0) as (r & F & RS).
    { cbn [find_row]. now rewrite (key_eqb_refl M QE). }
    apply (closed_nonhalting t r C c CL F); [|exact R].
    intros d. apply (MONO (side d r0)); [|apply MM]. intros s. apply (RS d s).
  Qed.
End Runs.

(** ** the four patterns *)
Ltac inup H := eapply H; cbn; repeat (first [left; reflexivity|right]).
Section Patterns.
  Context {Sym St : Type}.
  Variable M : machine Sym St.
  Notation b0 := (m_init_sym M).

  Definition ends (l : list Sym) (f : nat -> Sym) : Prop := seqv f (sapp l (fun _ => b0)).
  Lemma ends_stl l f : ends l f -> ends (tl l) (stl f).
  Proof.
    intros H i. unfold stl. rewrite (H (S i)). unfold sapp. destruct l as [|a l]; cbn [tl nth_error length]; [|reflexivity].
    now destruct i.
  Qed.
  Lemma ends_scons a l f : ends l f -> ends (a :: l) (scons a f).
  Proof. intros H i. rewrite sapp_cons. destruct i as [|i]; cbn; [reflexivity|]. apply H. Qed.
  Lemma ends_0 l f : ends l f -> f 0%nat = List.hd b0 l.
  Proof. intros H. rewrite (H 0%nat). destruct l; reflexivity. Qed.
  Lemma ends_blank f : ends [] f -> ends [b0] f.
  Proof. intros H i. rewrite (H i), sapp_cons. unfold sapp. destruct i as [|i]; cbn; [reflexivity|]. now destruct i. Qed.

  Definition pat1 (s : sets Sym) f := exists l, incl l (set_a s) /\ ends l f.
  Definition pat2 (s : sets Sym) f := exists l x, incl l (set_a s) /\ In x (set_b s) /\ ends (l ++ [x]) f.
  Definition pat3 (s : sets Sym) f := exists x l, In x (set_a s) /\ incl l (set_b s) /\ ends (x :: l) f.
  Definition pat4 (s : sets Sym) f :=
    exists l x y, incl l (set_a s) /\ In x (set_b s) /\ In y (set_c s) /\ ends (l ++ [x; y]) f.
  Definition ctl_pat (k : ctl_kind) : sets Sym -> (nat -> Sym) -> Prop :=
    match k with CTL1 => pat1 | CTL2 => pat2 | CTL3 => pat3 | CTL4 => pat4 end.

  Lemma ctl_mono k a b f : (forall s, incl (get s a) (get s b)) -> ctl_pat k a f -> ctl_pat k b f.
  Proof.
    intros H. pose proof (H SA) as HA. pose proof (H SB) as HB. pose proof (H SC) as HC. cbn in HA, HB, HC.
    destruct k; cbn [ctl_pat].
    - intros (l & I & E). exists l. split; [|exact E]. eapply incl_tran; eassumption.
    - intros (l & x & I & J & E). exists l, x. split; [eapply incl_tran; eassumption|]. auto.
    - intros (x & l & J & I & E). exists x, l. split; [auto|]. split; [eapply incl_tran; eassumption|exact E].
    - intros (l & x & y & I & J & K & E). exists l, x, y. split; [eapply incl_tran; eassumption|]. auto.
  Qed.

  Lemma ctl_adds_ne k r d b t : alg_adds (@ctl_alg Sym St M k) r d b t <> [].
  Proof.
    destruct k; cbn; try (destruct b; discriminate). destruct (dir_eqb (t_dir t) d); discriminate.
  Qed.

  (** updates seen from the faced side and the other side *)
  Lemma by_side (P : dir -> Prop) d : P d -> P (opp d) -> forall d', P d'.
  Proof. destruct d; intros A B [|]; assumption. Qed.
  Lemma dir_case d d' : d' = d \/ d' = opp d.
  Proof. destruct d, d'; auto. Qed.
  Lemma dir_eqb_opp d : dir_eqb (opp d) d = false. Proof. destruct d; reflexivity. Qed.
  Lemma dir_eqb_same d : dir_eqb d d = true. Proof. destruct d; reflexivity. Qed.
  Lemma side_l d (r : row Sym) : (side L r = side d r /\ side R r = side (opp d) r) \/
                                 (side R r = side d r /\ side L r = side (opp d) r).
  Proof. destruct d; auto. Qed.

  Lemma incl_cons_l (a : Sym) l m : incl (a :: l) m -> In a m /\ incl l m.
  Proof. intros H. split; [apply H; left; reflexivity|]. intros x I. apply H. now right. Qed.
  Lemma incl_one (a : Sym) m : incl [a] m -> In a m.
  Proof. intros H. apply H. left. reflexivity. Qed.
  Lemma incl_one_cons (a : Sym) l m : incl [a] m -> incl l m -> incl (a :: l) m.
  Proof. intros H K x [<-|I]; [apply H; left; reflexivity|auto]. Qed.

  Notation holds r d s xs := (incl xs (get s (side d r))) (only parsing).

  Lemma ctl_step k r (C : dcfg Sym St) : matches (ctl_pat k) r C ->
    exists b, In (b, facing C) (alg_looks (@ctl_alg Sym St M k) r (d_dir C)) /\
    forall t r', has_updates r' (alg_adds (ctl_alg M k) r (d_dir C) b t) ->
      matches (ctl_pat k) r' (apply_t C (t_sym t) (t_state t) (t_dir t)).
  Proof.
    intros MM. set (d := d_dir C).
    assert (AP : forall t, (t_dir t = d /\
        strm d (apply_t C (t_sym t) (t_state t) (t_dir t)) = stl (strm d C) /\
        strm (opp d) (apply_t C (t_sym t) (t_state t) (t_dir t)) = scons (t_sym t) (strm (opp d) C)) \/
      (t_dir t = opp d /\
        strm d (apply_t C (t_sym t) (t_state t) (t_dir t)) = scons (t_sym t) (stl (strm d C)) /\
        strm (opp d) (apply_t C (t_sym t) (t_state t) (t_dir t)) = strm (opp d) C)).
    { intros t. destruct (dir_case d (t_dir t)) as [E|E]; [left|right]; rewrite E.
      - split; [reflexivity|]. apply (apply_same C (t_sym t) (t_state t) d eq_refl).
      - split; [reflexivity|]. destruct (apply_back C (t_sym t) (t_state t) (opp d) eq_refl) as [X Y].
        rewrite opp_opp in Y. split; assumption. }
    pose proof (MM d) as MD. pose proof (MM (opp d)) as MO.
    assert (FA : facing C = strm d C 0%nat) by apply facing_strm.
    assert (ALL : forall (P : dir -> slot -> Prop), (forall s, P L s /\ P R s) -> forall s, P d s /\ P (opp d) s).
    { intros P HP s. destruct (HP s). destruct d; auto. }
    destruct k; cbn [ctl_pat ctl_alg] in *.
    - (* CTL1 *)
      destruct MD as (l & Il & El). destruct MO as (m & Im & Em).
      pose proof (ends_0 _ _ El) as E0. rewrite <- FA in E0.
      destruct l as [|a l]; cbn [List.hd] in E0; rewrite E0.
      + exists false. split; [cbn; apply in_or_app; right; left; reflexivity|].
        intros t r' H. cbn in H.
        pose proof (H (opp d) SA _ (or_introl eq_refl)) as H1.
        pose proof (H (opp (t_dir t)) SA _ (or_intror (or_introl eq_refl))) as H2. unfold at_ in *. cbn [get] in *.
        unfold matches; apply (by_side _ d); destruct (AP t) as [(X & Y & Z)|(X & Y & Z)]; rewrite X in H2.
        * rewrite Y. exists []. split; [intros ? []|]. apply (ends_stl [] _ El).
        * rewrite Y. rewrite opp_opp in H2. exists [t_sym t]. split; [exact H2|].
          apply ends_scons. apply (ends_stl [] _ El).
        * rewrite Z. exists (t_sym t :: m). split; [apply incl_one_cons; [exact H2|eapply incl_tran; eassumption]|].
          apply ends_scons, Em.
        * rewrite Z. exists m. split; [eapply incl_tran; eassumption|exact Em].
      + exists true. apply incl_cons_l in Il as [Ia Il].
        split; [cbn; apply in_or_app; left; apply in_map; exact Ia|].
        intros t r' H. cbn in H.
        assert (H1 : incl (set_a (side d r)) (set_a (side d r')) /\ incl (set_a (side (opp d) r)) (set_a (side (opp d) r'))).
        { apply (ALL (fun d _ => incl (set_a (side d r)) (set_a (side d r'))) (fun s => conj (H L SA _ (or_introl eq_refl)) (H R SA _ (or_intror (or_introl eq_refl)))) SA). }
        pose proof (H (opp (t_dir t)) SA _ (or_intror (or_intror (or_introl eq_refl)))) as H2. unfold at_ in *. cbn [get] in *.
        destruct H1 as [H1 H1'].
        unfold matches; apply (by_side _ d); destruct (AP t) as [(X & Y & Z)|(X & Y & Z)]; rewrite X in H2.
        * rewrite Y. exists l. split; [eapply incl_tran; eassumption|]. apply (ends_stl _ _ El).
        * rewrite Y. rewrite opp_opp in H2. exists (t_sym t :: l). split; [apply incl_one_cons; [exact H2|eapply incl_tran; eassumption]|].
          apply ends_scons. apply (ends_stl _ _ El).
        * rewrite Z. exists (t_sym t :: m). split; [apply incl_one_cons; [exact H2|eapply incl_tran; eassumption]|].
          apply ends_scons, Em.
        * rewrite Z. exists m. split; [eapply incl_tran; eassumption|exact Em].
    - (* CTL2 *)
      destruct MD as (l & x & Il & Ix & El). destruct MO as (m & y & Im & Iy & Em).
      pose proof (ends_0 _ _ El) as E0. rewrite <- FA in E0.
      destruct l as [|a l]; cbn [List.hd app] in E0, El; rewrite E0.
      + exists false. split; [cbn; apply in_or_app; right; apply in_map; exact Ix|].
        intros t r' H. cbn in H.
        pose proof (H (opp d) SA _ (or_introl eq_refl)) as H1.
        pose proof (H (opp d) SB _ (or_intror (or_introl eq_refl))) as H2.
        unfold matches; apply (by_side _ d); destruct (AP t) as [(X & Y & Z)|(X & Y & Z)]; rewrite X in H;
          rewrite ?dir_eqb_same, ?dir_eqb_opp in H; cbn in H;
          pose proof (H _ _ _ (or_intror (or_intror (or_introl eq_refl)))) as H3; unfold at_ in *; cbn [get] in *.
        * pose proof (H _ _ _ (or_intror (or_intror (or_intror (or_introl eq_refl))))) as H4. cbn [get] in H4.
          rewrite Y. exists [], b0. split; [intros ? []|]. split; [apply incl_one, H4|]. cbn [app].
          apply ends_blank. apply (ends_stl _ _ El).
        * rewrite Y. rewrite opp_opp in H3. exists [], (t_sym t). split; [intros ? []|]. split; [apply incl_one, H3|].
          cbn [app]. apply ends_scons. apply (ends_stl _ _ El).
        * rewrite Z. exists (t_sym t :: m), y. split; [apply incl_one_cons; [exact H3|eapply incl_tran; eassumption]|].
          split; [apply H2, Iy|]. cbn [app]. apply ends_scons, Em.
        * rewrite Z. exists m, y. split; [eapply incl_tran; eassumption|]. split; [apply H2, Iy|exact Em].
      + exists true. apply incl_cons_l in Il as [Ia Il].
        split; [cbn; apply in_or_app; left; apply in_map; exact Ia|].
        intros t r' H. cbn in H.
        assert (H1 : forall s, s = SA \/ s = SB -> incl (get s (side d r)) (get s (side d r')) /\ incl (get s (side (opp d) r)) (get s (side (opp d) r'))).
        { intros s Hs. apply (ALL (fun d s' => incl (get s (side d r)) (get s (side d r'))) ); [|exact SA]. intros _.
          destruct Hs as [-> | ->]; split.
          - inup (H L SA). - inup (H R SA). - inup (H L SB). - inup (H R SB). }
        destruct (H1 SA (or_introl eq_refl)) as [HA HA']. destruct (H1 SB (or_intror eq_refl)) as [HB HB'].
        assert (H2 : incl [t_sym t] (set_a (side (opp (t_dir t)) r'))) by (inup (H (opp (t_dir t)) SA)).
        cbn [get] in *.
        unfold matches; apply (by_side _ d); destruct (AP t) as [(X & Y & Z)|(X & Y & Z)]; rewrite X in H2.
        * rewrite Y. exists l, x. split; [eapply incl_tran; eassumption|]. split; [apply HB, Ix|]. apply (ends_stl _ _ El).
        * rewrite Y. rewrite opp_opp in H2. exists (t_sym t :: l), x. split; [apply incl_one_cons; [exact H2|eapply incl_tran; eassumption]|].
          split; [apply HB, Ix|]. cbn [app]. apply ends_scons. apply (ends_stl _ _ El).
        * rewrite Z. exists (t_sym t :: m), y. split; [apply incl_one_cons; [exact H2|eapply incl_tran; eassumption]|].
          split; [apply HB', Iy|]. cbn [app]. apply ends_scons, Em.
        * rewrite Z. exists m, y. split; [eapply incl_tran; eassumption|]. split; [apply HB', Iy|exact Em].
    - (* CTL3 *)
      destruct MD as (x & l & Ix & Il & El). destruct MO as (y & m & Iy & Im & Em).
      pose proof (ends_0 _ _ El) as E0. rewrite <- FA in E0. cbn [List.hd] in E0. rewrite E0.
      exists true. split; [cbn; apply in_map; exact Ix|]. intros t r' H. cbn in H.
      destruct (AP t) as [(X & Y & Z)|(X & Y & Z)]; rewrite X in H; rewrite ?dir_eqb_same, ?dir_eqb_opp in H; cbn in H.
      + pose proof (H _ _ _ (or_introl eq_refl)) as H1.
        pose proof (H _ _ _ (or_intror (or_introl eq_refl))) as H2.
        pose proof (H _ _ _ (or_intror (or_intror (or_introl eq_refl)))) as H3.
        pose proof (H _ _ _ (or_intror (or_intror (or_intror (or_introl eq_refl))))) as H4.
        pose proof (H _ _ _ (or_intror (or_intror (or_intror (or_intror (or_introl eq_refl)))))) as H5.
        pose proof (H _ _ _ (or_intror (or_intror (or_intror (or_intror (or_intror (or_introl eq_refl))))))) as H6.
        unfold at_ in *. cbn [get] in *.
        unfold matches; apply (by_side _ d); rewrite ?Y, ?Z.
        * pose proof (ends_stl _ _ El) as El'. cbn [tl] in El'. destruct l as [|z l].
          -- exists b0, []. split; [apply incl_one, H2|]. split; [intros ? []|]. apply ends_blank, El'.
          -- apply incl_cons_l in Il as [Iz Il]. exists z, l. split; [apply H1, Iz|]. split; [eapply incl_tran; eassumption|exact El'].
        * exists (t_sym t), (y :: m). split; [apply incl_one, H4|]. split; [|apply ends_scons, Em].
          apply incl_one_cons; [intros z [<-|[]]; apply H5, Iy|eapply incl_tran; eassumption].
      + rewrite !opp_opp in H.
        pose proof (H _ _ _ (or_introl eq_refl)) as H1.
        pose proof (H _ _ _ (or_intror (or_introl eq_refl))) as H2.
        pose proof (H _ _ _ (or_intror (or_intror (or_introl eq_refl)))) as H3.
        pose proof (H _ _ _ (or_intror (or_intror (or_intror (or_introl eq_refl))))) as H4.
        unfold at_ in *. cbn [get] in *.
        unfold matches; apply (by_side _ d); rewrite ?Y, ?Z.
        * exists (t_sym t), l. split; [apply incl_one, H3|]. split; [eapply incl_tran; eassumption|].
          apply ends_scons. apply (ends_stl _ _ El).
        * exists y, m. split; [apply H1, Iy|]. split; [eapply incl_tran; eassumption|exact Em].
    - (* CTL4 *)
      destruct MD as (l & x & z & Il & Ix & Iz & El). destruct MO as (m & y & w & Im & Iy & Iw & Em).
      pose proof (ends_0 _ _ El) as E0. rewrite <- FA in E0.
      destruct l as [|a l]; cbn [List.hd app] in E0, El; rewrite E0.
      + exists false. split; [cbn; apply in_or_app; right; apply in_map; exact Ix|].
        intros t r' H. cbn in H.
        pose proof (H (opp d) SA _ (or_introl eq_refl)) as H1.
        pose proof (H (opp d) SB _ (or_intror (or_introl eq_refl))) as H2.
        pose proof (H (opp d) SC _ (or_intror (or_intror (or_introl eq_refl)))) as H2'.
        unfold matches; apply (by_side _ d); destruct (AP t) as [(X & Y & Z)|(X & Y & Z)]; rewrite X in H;
          rewrite ?dir_eqb_same, ?dir_eqb_opp in H; cbn in H;
          pose proof (H _ _ _ (or_intror (or_intror (or_intror (or_introl eq_refl))))) as H3; unfold at_ in *; cbn [get] in *;
          pose proof (H _ _ _ (or_intror (or_intror (or_intror (or_intror (or_introl eq_refl)))))) as H4; cbn [get] in *.
        * pose proof (H _ _ _ (or_intror (or_intror (or_intror (or_intror (or_intror (or_introl eq_refl))))))) as H5. cbn [get] in H5.
          rewrite Y. exists [], z, b0. split; [intros ? []|]. split; [apply H4, Iz|]. split; [apply incl_one, H5|]. cbn [app].
          pose proof (ends_stl _ _ El) as El'. cbn [tl] in El'. clear - El'.
          intros i. rewrite (El' i). unfold sapp. destruct i as [|[|[|i]]]; reflexivity.
        * rewrite Y. rewrite opp_opp in H3, H4. exists [], (t_sym t), z. split; [intros ? []|]. split; [apply incl_one, H3|].
          split; [apply H4, Iz|]. cbn [app]. apply ends_scons. apply (ends_stl _ _ El).
        * rewrite Z. exists (t_sym t :: m), y, w. split; [apply incl_one_cons; [exact H3|eapply incl_tran; eassumption]|].
          split; [apply H2, Iy|]. split; [apply H2', Iw|]. cbn [app]. apply ends_scons, Em.
        * rewrite Z. exists m, y, w. split; [eapply incl_tran; eassumption|]. split; [apply H2, Iy|]. split; [apply H2', Iw|exact Em].
      + exists true. apply incl_cons_l in Il as [Ia Il].
        split; [cbn; apply in_or_app; left; apply in_map; exact Ia|].
        intros t r' H. cbn in H.
        assert (H1 : forall s, incl (get s (side d r)) (get s (side d r')) /\ incl (get s (side (opp d) r)) (get s (side (opp d) r'))).
        { intros s. apply (ALL (fun d s' => incl (get s (side d r)) (get s (side d r'))) ); [|exact SA]. intros _.
          destruct s; split.
          - inup (H L SA). - inup (H R SA). - inup (H L SB). - inup (H R SB).
          - inup (H L SC). - inup (H R SC). }
        destruct (H1 SA) as [HA HA']. destruct (H1 SB) as [HB HB']. destruct (H1 SC) as [HC HC'].
        assert (H2 : incl [t_sym t] (set_a (side (opp (t_dir t)) r'))) by (inup (H (opp (t_dir t)) SA)).
        cbn [get] in *.
        unfold matches; apply (by_side _ d); destruct (AP t) as [(X & Y & Z)|(X & Y & Z)]; rewrite X in H2.
        * rewrite Y. exists l, x, z. split; [eapply incl_tran; eassumption|]. split; [apply HB, Ix|]. split; [apply HC, Iz|]. apply (ends_stl _ _ El).
        * rewrite Y. rewrite opp_opp in H2. exists (t_sym t :: l), x, z. split; [apply incl_one_cons; [exact H2|eapply incl_tran; eassumption]|].
          split; [apply HB, Ix|]. split; [apply HC, Iz|]. cbn [app]. apply ends_scons. apply (ends_stl _ _ El).
        * rewrite Z. exists (t_sym t :: m), y, w. split; [apply incl_one_cons; [exact H2|eapply incl_tran; eassumption]|].
          split; [apply HB', Iy|]. split; [apply HC', Iw|]. cbn [app]. apply ends_scons, Em.
        * rewrite Z. exists m, y, w. split; [eapply incl_tran; eassumption|]. split; [apply HB', Iy|]. split; [apply HC', Iw|exact Em].
  Qed.
End Patterns.

(** ** the initial sets *)
Definition expand {Sym} (b : blk Z Sym) : list Sym :=
  repeat (k_sym b) (match k_num b with Some z => Z.to_nat z | None => 0%nat end).
Definition spell {Sym} (bs : list (blk Z Sym)) : list Sym := concat (map expand bs).
Definition finite {Sym} (b : blk Z Sym) : Prop := exists z, k_num b = Some z /\ (0 < z)%Z.

Lemma spell_app {Sym} (a b : list (blk Z Sym)) : spell (a ++ b) = spell a ++ spell b.
Proof. unfold spell. now rewrite map_app, concat_app. Qed.
Lemma spell_one {Sym} (b : blk Z Sym) : spell [b] = expand b.
Proof. unfold spell. cbn. now rewrite app_nil_r. Qed.
Lemma in_expand {Sym} (b : blk Z Sym) x : In x (expand b) -> x = k_sym b.
Proof. apply repeat_spec. Qed.
Lemma spell_incl {Sym} (bs : list (blk Z Sym)) : incl (spell bs) (map k_sym bs).
Proof.
  intros x I. unfold spell in I. apply in_concat in I as (l & J & I). apply in_map_iff in J as (b & <- & J).
  apply in_expand in I. subst x. now apply in_map.
Qed.
Lemma expand_front {Sym} (b : blk Z Sym) : finite b ->
  exists k, expand b = k_sym b :: repeat (k_sym b) k /\ (more 1 b = false -> k = 0%nat) /\ (more 2 b = false -> k <= 1)%nat.
Proof.
  intros (z & E & P). unfold expand, more. rewrite E.
  exists (Z.to_nat z - 1)%nat. destruct (Z.to_nat z) as [|k] eqn:Ez; [lia|]. cbn. rewrite Nat.sub_0_r.
  split; [reflexivity|]. split; intros H; apply Z.ltb_ge in H; lia.
Qed.
Lemma repeat_snoc {A} (a : A) k : a :: repeat a k = repeat a k ++ [a].
Proof. induction k as [|k IH]; cbn; [reflexivity|]. now rewrite <- IH. Qed.
Lemma expand_back {Sym} (b : blk Z Sym) : finite b ->
  exists k, expand b = repeat (k_sym b) k ++ [k_sym b] /\ (more 1 b = false -> k = 0%nat) /\ (more 2 b = false -> k <= 1)%nat.
Proof. intros F. destruct (expand_front b F) as (k & E & H). exists k. now rewrite <- repeat_snoc. Qed.
Lemma more12 {Sym} (b : blk Z Sym) : more 2 b = true -> more 1 b = true.
Proof. unfold more. destruct (k_num b); [|reflexivity]. intros H. apply Z.ltb_lt in H. apply Z.ltb_lt. lia. Qed.
Lemma incl_repeat {A} (a : A) k l : In a l -> incl (repeat a k) l.
Proof. intros I x J. apply repeat_spec in J. now subst. Qed.

Lemma rev_case {A} (l : list A) : l = [] \/ exists l' a, l = l' ++ [a].
Proof.
  destruct (rev l) as [|a l'] eqn:E; [left|right]; rewrite <- (rev_involutive l), E; [reflexivity|].
  exists (rev l'), a. reflexivity.
Qed.

Section Init.
  Context {Sym St : Type}.
  Variable M : machine Sym St.
  Hypothesis SE : forall a b, m_sym_eqb M a b = true <-> a = b.
  Notation b0 := (m_init_sym M).
  Notation ends := (ends M).

  Lemma hwf_spell h : hwf b0 h -> exists bs, h = bs ++ [Blk b0 None] /\ Forall finite bs /\ ends (spell bs) (hden b0 h).
  Proof.
    induction 1 as [|s z h P W (bs & -> & F & E)].
    - exists []. split; [reflexivity|]. split; [constructor|]. intros i. cbn. unfold sapp. now destruct i.
    - exists (Blk s (Some z) :: bs). split; [reflexivity|]. split; [constructor; [exists z; auto|exact F]|].
      intros i. cbn [hden k_num k_sym app]. unfold spell. cbn [map concat].
      rewrite (sapp_app (expand (Blk s (Some z))) _ _ i). unfold expand at 1. cbn [k_sym k_num].
      apply (sapp_ext (repeat s (Z.to_nat z))). exact E.
  Qed.

  Lemma union_in l xs y : In y (union M l xs) <-> In y l \/ In y xs.
  Proof. apply (set_update_in M SE). Qed.
  Lemma union_incl l xs : incl xs (union M l xs).
  Proof. intros y I. apply union_in. auto. Qed.

  Definition fits (k : ctl_kind) (h : list (blk Z Sym)) : Prop :=
    k = CTL4 -> forall b, pyix h 1 = Some b -> more 2 b = true -> exists c, nth_error h 1 = Some c /\ more 2 c = true.

  Lemma pyix0 (bs : list (blk Z Sym)) e : pyix (bs ++ [e]) 0 = Some e.
  Proof. unfold pyix. now rewrite rev_unit. Qed.
  Lemma pyix1 (bs : list (blk Z Sym)) b e : pyix ((bs ++ [b]) ++ [e]) 1 = Some b.
  Proof. unfold pyix. now rewrite !rev_unit. Qed.
  Lemma pyix2 (bs : list (blk Z Sym)) a b e : pyix (((bs ++ [a]) ++ [b]) ++ [e]) 2 = Some a.
  Proof. unfold pyix. now rewrite !rev_unit. Qed.

  Lemma init_pat k h s : hwf b0 h -> fits k h -> ctl_init M k h = Some s -> ctl_pat M k s (hden b0 h).
  Proof.
    intros W FI E. destruct (hwf_spell h W) as (bs & Eh & F & EN). destruct k; cbn [ctl_init ctl_pat] in *.
    - assert (s = init1 M h) as -> by congruence. exists (spell bs). split; [|exact EN]. unfold init1. cbn [set_a].
      eapply incl_tran; [apply spell_incl|]. eapply incl_tran; [|apply union_incl].
      rewrite Eh, map_app. apply incl_appl, incl_refl.
    - assert (s = init2 M h) as -> by congruence. unfold init2.
      subst h. rewrite removelast_last.
      destruct (rev_case bs) as [->|(cs & b & ->)].
      + cbn. exists [], b0. split; [intros ? []|]. split; [now left|]. cbn [app]. apply ends_blank. exact EN.
      + rewrite pyix1. apply Forall_app in F as [F Fb]. apply Forall_inv in Fb.
        destruct (expand_back b Fb) as (k & Eb & K1 & _). rewrite spell_app, spell_one, Eb, app_assoc in EN.
        assert (LE : (2 <=? length ((cs ++ [b]) ++ [Blk b0 None]))%nat = true).
        { apply Nat.leb_le. rewrite !app_length. cbn. lia. }
        rewrite LE. cbn [andb]. exists (spell cs ++ repeat (k_sym b) k), (k_sym b).
        assert (SP : incl (spell cs) (map k_sym cs)) by apply spell_incl.
        destruct (more 1 b) eqn:Em; cbn [set_a set_b].
        * rewrite removelast_last, last_last, map_app. cbn [map].
          split; [|split; [destruct ((map k_sym cs ++ [k_sym b]) ++ [k_sym b]) eqn:Q; [now destruct (map k_sym cs)|now left]|exact EN]].
          eapply incl_tran; [|apply union_incl]. apply incl_app.
          -- now apply incl_appl.
          -- apply incl_appr, incl_repeat. now left.
        * rewrite map_app. cbn [map]. rewrite removelast_last, last_last. rewrite (K1 eq_refl), app_nil_r. rewrite (K1 eq_refl) in EN.
          split; [|split; [destruct (map k_sym cs ++ [k_sym b]) eqn:Q; [now destruct (map k_sym cs)|now left]|rewrite app_nil_r in EN; exact EN]].
          eapply incl_tran; [exact SP|apply union_incl].
    - unfold init3 in E. destruct bs as [|b cs].
      + subst h. cbn in E. assert (s = Sets [b0] [b0] []) as -> by congruence.
        exists b0, []. split; [now left|]. split; [intros ? []|]. apply ends_blank. exact EN.
      + subst h. cbn [app] in E. change (b :: cs ++ [Blk b0 None]) with ((b :: cs) ++ [Blk b0 None]) in E.
        rewrite removelast_last in E. cbn [tl] in E. pose proof (Forall_inv F) as Fb.
        destruct (expand_front b Fb) as (k & Eb & K1 & _).
        assert (Q : s = Sets [k_sym b] (if more 1 b then union M (union M [] (map k_sym cs)) [k_sym b] else union M [] (map k_sym cs)) [])
          by (symmetry; now injection E). subst s. exists (k_sym b), (repeat (k_sym b) k ++ spell cs). cbn [set_a set_b].
        split; [now left|]. split; [|unfold spell in EN; cbn [map concat] in EN; rewrite Eb in EN; exact EN].
        apply incl_app.
        * destruct (more 1 b) eqn:Em; [|rewrite (K1 eq_refl); intros ? []].
          apply incl_repeat. apply union_in. right. now left.
        * intros x I. apply spell_incl in I. destruct (more 1 b); rewrite ?union_in; auto.
    - specialize (FI eq_refl). unfold init4 in E. subst h. rewrite pyix0 in E.
      destruct (rev_case bs) as [->|(cs & b & ->)].
      + cbn in E. assert (s = Sets [] [b0] [b0]) as -> by congruence. cbn in *.
        exists [], b0, b0. split; [intros ? []|]. split; [now left|]. split; [now left|]. cbn [app].
        intros i. rewrite (EN i). unfold sapp. destruct i as [|[|[|i]]]; reflexivity.
      + rewrite pyix1 in E, FI. specialize (FI b eq_refl).
        apply Forall_app in F as [F Fb]. apply Forall_inv in Fb.
        destruct (expand_back b Fb) as (k & Eb & K1 & K2). rewrite spell_app, spell_one, Eb in EN.
        assert (SK : skipn 2 (rev ((cs ++ [b]) ++ [Blk b0 None])) = rev cs) by (rewrite !rev_unit; reflexivity).
        rewrite SK, rev_involutive in E. clear SK. cbn [k_sym] in E.
        destruct (more 1 b) eqn:Em.
        * rewrite orb_true_r in E.
          destruct (nth_error ((cs ++ [b]) ++ [Blk b0 None]) 1) as [nb|] eqn:En; [|discriminate].
          set (a := match pyix ((cs ++ [b]) ++ [Blk b0 None]) 2 with
                    | Some p2 => union M (union M [] (map k_sym cs)) [k_sym p2] | None => union M [] (map k_sym cs) end) in E.
          assert (IA : incl (map k_sym cs) a).
          { unfold a. destruct (pyix _ 2); intros x I; rewrite ?union_in; auto. }
          assert (Q : s = Sets (if more 2 nb then union M a [k_sym b] else a) [k_sym b] [k_sym b]) by congruence.
          subst s. cbn [set_a set_b set_c]. destruct k as [|k].
          { exfalso. destruct Fb as (z & Ez & _). unfold expand, more in *. rewrite Ez in *. apply Z.ltb_lt in Em.
            apply (f_equal (@length _)) in Eb. rewrite repeat_length in Eb. cbn in Eb. lia. }
          exists (spell cs ++ repeat (k_sym b) k), (k_sym b), (k_sym b).
          split; [|split; [now left|split; [now left|]]].
          -- apply incl_app.
             ++ eapply incl_tran; [apply spell_incl|]. destruct (more 2 nb); [|exact IA]. intros x I. apply union_in. auto.
             ++ destruct (more 2 b) eqn:E2.
                ** destruct (FI eq_refl) as (c & Ec & E3). assert (c = nb) as -> by congruence. rewrite E3.
                   apply incl_repeat. apply union_in. right. now left.
                ** specialize (K2 eq_refl). assert (k = 0%nat) as -> by lia. intros ? [].
          -- rewrite <- repeat_snoc in EN. cbn [repeat app] in EN. rewrite repeat_snoc in EN. rewrite <- app_assoc.
             assert (Q : repeat (k_sym b) k ++ [k_sym b; k_sym b] = k_sym b :: repeat (k_sym b) k ++ [k_sym b]).
             { change [k_sym b; k_sym b] with ([k_sym b] ++ [k_sym b]). rewrite app_assoc, <- repeat_snoc. cbn. now rewrite <- repeat_snoc. }
             rewrite Q. exact EN.
        * rewrite orb_false_r in E. rewrite (K1 eq_refl) in EN. cbn [repeat app] in EN.
          destruct (rev_case cs) as [->|(ds & c & ->)].
          -- cbn in E. assert (s = Sets [] [k_sym b] [b0]) as -> by congruence.
             exists [], (k_sym b), b0. split; [intros ? []|]. split; [now left|]. split; [now left|]. cbn [spell map concat app] in *.
             intros i. rewrite (EN i). unfold sapp. destruct i as [|[|[|i]]]; reflexivity.
          -- assert (LE : (3 <=? length (((ds ++ [c]) ++ [b]) ++ [Blk b0 None]))%nat = true).
             { apply Nat.leb_le. rewrite !app_length. cbn. lia. }
             rewrite LE, pyix2 in E. cbv iota in E.
             destruct (nth_error (((ds ++ [c]) ++ [b]) ++ [Blk b0 None]) 2) as [nb|]; [|discriminate].
             assert (Q : s = Sets (if more 1 nb then union M (union M [] (map k_sym (ds ++ [c]))) [k_sym c]
                                   else union M [] (map k_sym (ds ++ [c]))) [k_sym c] [k_sym b]) by congruence.
             subst s. cbn [set_a set_b set_c]. apply Forall_app in F as [F Fc]. apply Forall_inv in Fc.
             destruct (expand_back c Fc) as (j & Ec & _). rewrite spell_app, spell_one, Ec in EN.
             exists (spell ds ++ repeat (k_sym c) j), (k_sym c), (k_sym b).
             split; [|split; [now left|split; [now left|]]].
             ++ assert (X : incl (spell ds ++ repeat (k_sym c) j) (map k_sym (ds ++ [c]))).
                { rewrite map_app. apply incl_app; [apply incl_appl, spell_incl|apply incl_appr, incl_repeat; now left]. }
                intros x I. apply X in I. destruct (more 1 nb); cbn [set_a]; repeat rewrite union_in; tauto.
             ++ rewrite <- !app_assoc in EN. rewrite <- !app_assoc. exact EN.
  Qed.
End Init.

(** ** a whole test *)
Lemma test_machine_ok Gd T {Sym St} (M : machine Sym St) k fuel cutoff n :
  sound_machine Gd T Sym St M -> test_machine M k fuel cutoff = Some (true, n) ->
  (forall s, sim_seek M no_prover cutoff (tt, sim_init zops M) = Some (tt, s) ->
     fits k (ct_l (s_tape s)) /\ fits k (ct_r (s_tape s))) ->
  nonhalting T initial.
Proof.
  intros (Rp & halted & MS & SW & _) E FI. unfold test_machine in E.
  destruct (drive_ok Gd T M Rp halted MS SW no_prover _ (no_prover_ok T M Rp) (Seek cutoff) tt (sim_init zops M) I
              (sim_init_ok Gd T M Rp halted MS)) as ([] & s & Ed & _ & H).
  cbn [drive] in Ed. specialize (FI s Ed). rewrite Ed in E.
  destruct (s_op s) eqn:Eo; cbn [cond_eqb] in E; try discriminate.
  unfold sim_ok in H. rewrite Eo in H. destruct H as ((W1 & W2) & Di & P & (c & Ec & R) & _).
  destruct FI as [FL FR].
  destruct (ctl_init M k (ct_l (s_tape s))) as [l|] eqn:El; [|discriminate].
  destruct (ctl_init M k (ct_r (s_tape s))) as [r|] eqn:Er; [|discriminate].
  apply (nonhalting_steps T _ _ _ Ec).
  pose proof (ms_sym_eq _ _ _ _ _ MS) as SE.
  eapply (loop_nonhalting Gd T M Rp halted MS (ctl_alg M k) (ctl_adds_ne M k) (ctl_pat M k) (ctl_step M k) (ctl_mono M k)
            fuel (Row l r) (tden (m_init_sym M) (s_tape s) (s_state s)) c n); [|intros [|]; cbn|exact R].
  - cbn. rewrite Di. exact E.
  - apply (init_pat M SE k _ _ W1 FL El).
  - apply (init_pat M SE k _ _ W2 FR Er).
Qed.
