(** * Lexical normal form *)
Require Import ZArith List Lia Bool Arith Permutation Ascii.
From Verif Require Import Spec_TM Spec_Rename M_Turing_Machine M_Direct M_IO M_Enum P_Macro P_Quint P_IO P_Tree P_Complete2 P_Permute.
Import ListNotations.
Open Scope nat_scope.

(** ** all orders *)

Lemma iter_perms_spec : forall fuel xs p, length xs = fuel -> In p (iter_perms_from fuel xs) <-> Permutation p xs.
Proof.
  induction fuel as [|fuel IH]; intros xs p Hl.
  - destruct xs; [|discriminate]. simpl. split; [intros [<-|[]]; constructor|]. intros H. symmetry in H. apply Permutation_nil in H. auto.
  - destruct xs as [|x xs]; [discriminate|]. destruct xs as [|y xs].
    { simpl. split; [intros [<-|[]]; auto|]. intros H. symmetry in H. apply Permutation_length_1_inv in H. auto. }
    remember (x :: y :: xs) as l eqn:El.
    assert (E : iter_perms_from (S fuel) l = flat_map (fun i => map (cons (nth i l 0)) (iter_perms_from fuel (firstn i l ++ skipn (S i) l))) (seq 0 (length l))) by (subst l; reflexivity).
    assert (Hsplit : forall i, i < length l -> l = firstn i l ++ nth i l 0 :: skipn (S i) l).
    { clear. induction l as [|a l IH]; intros i Hi; simpl in Hi; [lia|]. destruct i; simpl; auto. f_equal. apply IH. lia. }
    assert (Hlen : forall i, i < length l -> length (firstn i l ++ skipn (S i) l) = fuel).
    { intros i Hi. pose proof (f_equal (@length nat) (Hsplit i Hi)) as X. rewrite app_length in *. cbn [length] in X. lia. }
    rewrite E, in_flat_map. split.
    + intros (i & Hi & Hp). apply in_seq in Hi. apply in_map_iff in Hp. destruct Hp as (sub & <- & Hs).
      apply IH in Hs; [|apply Hlen; lia]. rewrite (Hsplit i) at 2 by lia. rewrite <- Permutation_middle. now constructor.
    + intros Hp. destruct p as [|a p]. { apply Permutation_length in Hp. rewrite Hl in Hp. discriminate. }
      assert (Ha : In a l) by (apply (Permutation_in _ Hp); simpl; auto). destruct (In_nth l a 0 Ha) as (i & Hi & Ei).
      exists i. split; [apply in_seq; lia|]. apply in_map_iff. exists p. split; [congruence|]. apply IH; [now apply Hlen|].
      apply Permutation_cons_inv with (a := a). rewrite Hp. rewrite (Hsplit i) at 1 by lia. rewrite Ei. symmetry. apply Permutation_middle.
Qed.

Lemma In_perms xs p : In p (iter_perms xs) <-> Permutation p xs.
Proof. now apply iter_perms_spec. Qed.

(** ** the order of strings *)

Lemma str_ltb_irrefl a : str_ltb a a = false.
Proof. induction a as [|x a IH]; simpl; auto. now rewrite Ascii.eqb_refl. Qed.

Lemma nat_ascii_inj x y : nat_of_ascii x = nat_of_ascii y -> x = y.
Proof. intros H. rewrite <- (ascii_nat_embedding x), <- (ascii_nat_embedding y). now rewrite H. Qed.

Lemma str_ltb_trans : forall a b c, str_ltb a b = true -> str_ltb b c = true -> str_ltb a c = true.
Proof.
  induction a as [|x a IH]; intros [|y b] [|z c]; simpl; try discriminate; auto.
  destruct (Ascii.eqb_spec x y) as [-> |Hxy].
  - destruct (Ascii.eqb_spec y z) as [-> |Hyz]; eauto.
  - intros H1. apply Nat.ltb_lt in H1. destruct (Ascii.eqb_spec y z) as [-> |Hyz]; intros H2.
    + destruct (Ascii.eqb_spec x z); [contradiction|]. now apply Nat.ltb_lt.
    + apply Nat.ltb_lt in H2. destruct (Ascii.eqb_spec x z) as [-> |]; [lia|]. apply Nat.ltb_lt. lia.
Qed.

Lemma str_ltb_total : forall a b, str_ltb a b = false -> str_ltb b a = false -> a = b.
Proof.
  induction a as [|x a IH]; intros [|y b]; simpl; try discriminate; auto.
  destruct (Ascii.eqb_spec x y) as [-> |Hxy].
  - rewrite Ascii.eqb_refl. intros. f_equal. auto.
  - destruct (Ascii.eqb_spec y x) as [-> |]; [contradiction|]. rewrite !Nat.ltb_ge. intros H1 H2. exfalso. apply Hxy, nat_ascii_inj. lia.
Qed.

(** ** the loop *)

Lemma lnf_loop_spec tab n m : forall orders best_str best,
  (forall so syo, In (so, syo) orders -> exists p s, lnf_permute tab so syo = Some p /\ ttable_str (lt_tab p) n m = Some s) ->
  ttable_str (lt_tab best) n m = Some best_str ->
  exists p s, lnf_loop tab n m orders best_str best = Some p /\ ttable_str (lt_tab p) n m = Some s /\
    (p = best \/ exists so syo, In (so, syo) orders /\ lnf_permute tab so syo = Some p) /\
    str_ltb best_str s = false /\
    (forall so syo p' s', In (so, syo) orders -> lnf_permute tab so syo = Some p' -> ttable_str (lt_tab p') n m = Some s' -> str_ltb s' s = false).
Proof.
  induction orders as [|(so & syo) orders IH]; intros bs best Hall Hb; cbn [lnf_loop].
  - exists best, bs. repeat split; auto; [apply str_ltb_irrefl|]. intros ? ? ? ? [].
  - destruct (Hall so syo) as (p & s & Ep & Es); [simpl; auto|]. rewrite Ep, Es.
    destruct (str_ltb s bs) eqn:El.
    + destruct (IH s p) as (p1 & s1 & E1 & Es1 & Hp1 & Hle & Hmin); auto. { intros. apply Hall. simpl. auto. }
      exists p1, s1. split; [exact E1|]. split; [exact Es1|]. split; [|split].
      * right. destruct Hp1 as [-> |(a & b & Hin & E)]; [exists so, syo|exists a, b]; simpl; auto.
      * destruct (str_ltb bs s1) eqn:E2; auto. rewrite (str_ltb_trans _ _ _ El E2) in Hle. discriminate.
      * intros a b p' s' [[= -> ->]|Hin] E Es'; [|eauto]. assert (p' = p) as -> by congruence. congruence.
    + destruct (IH bs best) as (p1 & s1 & E1 & Es1 & Hp1 & Hle & Hmin); auto. { intros. apply Hall. simpl. auto. }
      exists p1, s1. split; [exact E1|]. split; [exact Es1|]. split; [|split].
      * destruct Hp1 as [-> |(a & b & Hin & E)]; auto. right. exists a, b. simpl. auto.
      * exact Hle.
      * intros a b p' s' [[= -> ->]|Hin] E Es'; [|eauto]. assert (p' = p) as -> by congruence. assert (s' = s) as -> by congruence.
        destruct (str_ltb s s1) eqn:E2; auto. exfalso.
        destruct (str_ltb s1 bs) eqn:E3; [rewrite (str_ltb_trans _ _ _ E2 E3) in El; discriminate|].
        assert (s1 = bs) as -> by (now apply str_ltb_total). congruence.
Qed.

(** ** the text of a table *)

Lemma ttable_str_total n m tab : rect n m tab ->
  (forall i j t, cell tab i j = Some t -> basic_cell n m t /\ (m < 10 -> t_sym t < 10)) -> exists s, ttable_str tab n m = Some s.
Proof.
  intros Hr H. unfold ttable_str. destruct (Nat.ltb_spec n 25); simpl; eauto. destruct (Nat.ltb_spec m 10); simpl; eauto.
  assert (X : exists rows, otraverse (map (fun row => option_map (@concat ascii) (otraverse (map to_ttable_str row))) tab) = Some rows).
  { apply otraverse_all. intros x Hx. apply in_map_iff in Hx. destruct Hx as (row & <- & Hrow).
    destruct (otraverse_all (map to_ttable_str row)) as (r & ->); [|discriminate].
    intros y Hy. apply in_map_iff in Hy. destruct Hy as (t & <- & Ht).
    apply In_nth_error in Hrow, Ht. destruct Hrow as (i & Ei), Ht as (j & Ej).
    assert (Ec : cell tab i j = Some t) by (unfold cell; unfold ttable, trans_row in *; now rewrite Ei).
    destruct (H _ _ _ Ec) as (Hb & Hs). specialize (Hs ltac:(lia)). unfold to_ttable_str, basic_cell in *. destruct (t_cond t); try contradiction; try discriminate.
    - destruct Hb as (Hw & q & -> & Hq). destruct (Nat.ltb_spec (t_sym t) 10); [|lia]. destruct (Nat.ltb_spec q 26); [discriminate|lia].
    - destruct (Nat.ltb_spec (t_sym t) 10); [discriminate|lia]. }
  destruct X as (rows & ->). eauto.
Qed.

Lemma ttable_str_ext n m tab tab' : rect n m tab -> rect n m tab' ->
  (forall i j t t', cell tab i j = Some t -> cell tab' i j = Some t' -> to_ttable_str t = to_ttable_str t') ->
  ttable_str tab n m = ttable_str tab' n m.
Proof.
  intros Hr Hr' H. unfold ttable_str. destruct (_ && _)%bool; auto.
  assert (X : forall l : ttable, map (fun row => option_map (@concat ascii) (otraverse (map to_ttable_str row))) l =
              map (fun r => option_map (@concat ascii) (otraverse r)) (map (map to_ttable_str) l)) by (intros l; now rewrite map_map).
  rewrite !X. replace (map (map to_ttable_str) tab') with (map (map to_ttable_str) tab); auto.
  assert (Hc : forall (l : ttable) i j, cell (map (map to_ttable_str) l) i j = option_map to_ttable_str (cell l i j)).
  { intros l i j. unfold cell. rewrite nth_error_map. unfold ttable, trans_row in *. destruct (nth_error l i); simpl; auto. apply nth_error_map. }
  assert (Hrm : forall l : ttable, rect n m l -> rect n m (map (map to_ttable_str) l)).
  { intros l (Hl & Hw). split; [now rewrite map_length|]. intros row Hin. apply in_map_iff in Hin. destruct Hin as (r & <- & Hin). rewrite map_length. auto. }
  apply (rect_ext n m); auto. intros i j Hi Hj. rewrite !Hc.
  destruct (rect_cell n m tab i j Hr Hi Hj) as (t & Et), (rect_cell n m tab' i j Hr' Hi Hj) as (t' & Et').
  unfold ttable, trans_row in *. rewrite Et, Et'. simpl. f_equal. eapply H; eauto.
Qed.

Lemma ttable_str_first n m tab s t x y z : rect n m tab -> 0 < n -> 0 < m -> n < 25 -> m < 10 ->
  cell tab 0 0 = Some t -> to_ttable_str t = Some [x; y; z] -> ttable_str tab n m = Some s -> exists rest, s = x :: y :: z :: rest.
Proof.
  intros (Hl & Hr) Hn Hm Hn' Hm' Ec Et. unfold ttable_str. destruct (Nat.ltb_spec n 25); [|lia]. destruct (Nat.ltb_spec m 10); [|lia]. simpl.
  destruct tab as [|row tab]; [simpl in Hl; lia|]. destruct row as [|t0 row]; [specialize (Hr [] (or_introl eq_refl)); simpl in Hr; lia|].
  unfold cell in Ec. simpl in Ec. injection Ec as ->. cbn [map otraverse]. rewrite Et.
  destruct (otraverse (map to_ttable_str row)) as [r|]; [|discriminate]. cbn [option_map concat].
  destruct (otraverse (map _ tab)) as [rows|]; [|discriminate]. intros [= <-]. destruct rows; simpl; eauto.
Qed.

(** ** every candidate is the machine under other names *)

Lemma index0_spec n l : Permutation l (seq 0 n) -> 0 < n -> exists a, index0 l = Some a /\ a < n /\ nth a l 0 = 0.
Proof.
  intros P Hn. assert (Hin : In 0 l) by (apply (Permutation_in _ (Permutation_sym P)), in_seq; lia).
  assert (G : exists a, index0 l = Some a /\ a < length l /\ nth a l 0 = 0).
  { clear P. induction l as [|x l IH]; [destruct Hin|]. simpl. destruct (Nat.eqb_spec x 0) as [-> |Hx].
    - exists 0. simpl. repeat split; auto. lia.
    - destruct Hin as [|Hin]; [contradiction|]. destruct (IH Hin) as (a & -> & Ha & E). exists (S a). simpl. repeat split; auto. lia. }
  rewrite (Permutation_length P), seq_length in G. exact G.
Qed.

Lemma lnf_permute_ok n m tab so syo : 0 < n -> 0 < m -> basic_table n m tab ->
  Permutation so (seq 0 n) -> Permutation syo (seq 0 m) ->
  exists p b t, lnf_permute tab so syo = Some p /\ cell tab (nth 0 so 0) 0 = Some t /\ b = dir_eqb (t_dir t) R /\
    permute_table tab so syo b = Some (lt_tab p) /\
    permuted n m so syo b tab (lt_tab p) /\ lt_state p < n /\ nth (lt_state p) so 0 = 0 /\ lt_symbol p < m /\ nth (lt_symbol p) syo 0 = 0.
Proof.
  intros Hn Hm B Ps Py. destruct so as [|i so]. { apply Permutation_length in Ps. rewrite seq_length in Ps. simpl in Ps. lia. }
  assert (Hi : i < n). { assert (X : In i (seq 0 n)) by (apply (Permutation_in _ Ps); simpl; auto). apply in_seq in X. lia. }
  destruct (rect_cell n m tab i 0 (proj1 B) Hi Hm) as (t & Et). unfold lnf_permute.
  assert (Et' : cell_at tab i 0 = Some t) by (rewrite cell_at_cell; exact Et). rewrite Et'.
  destruct (permute_table_ok n m tab (i :: so) syo (dir_eqb (t_dir t) R) B Ps Py) as (tab' & E & Hp). rewrite E.
  destruct (index0_spec n _ Ps Hn) as (a & Ea & Ha & Na), (index0_spec m _ Py Hm) as (c & Ec & Hc & Nc). rewrite Ea, Ec.
  exists (LnfTM tab' a c), (dir_eqb (t_dir t) R), t. cbn [lt_tab lt_state lt_symbol]. cbn [nth]. repeat (split; [solve [auto]|]). auto.
Qed.

Lemma permuted_text n m so syo b tab tab' : basic_table n m tab -> Permutation so (seq 0 n) -> Permutation syo (seq 0 m) ->
  permuted n m so syo b tab tab' -> exists s, ttable_str tab' n m = Some s.
Proof.
  intros B Ps Py Hp. pose proof (permuted_basic _ _ _ _ _ _ _ B Ps Py Hp) as B'. apply ttable_str_total; [apply B'|].
  intros i j t Et. pose proof (proj2 B' _ _ _ Et) as Hb. split; auto. intros Hm.
  destruct Hp as (Hr & Hp). destruct (cell_bounds _ _ _ _ _ _ Hr Et) as (Hi & Hj). destruct (Hp i j Hi Hj) as (t0 & t1 & E0 & Ep & E1).
  assert (t1 = t) as -> by congruence. unfold permute_trans in Ep. unfold basic_cell in Hb.
  destruct (t_cond t0) eqn:Ec; try discriminate; try (injection Ep as <-; simpl; lia).
  destruct (t_state t0); [|destruct (old2new syo (t_sym t0)); discriminate]. destruct (old2new syo (t_sym t0)) eqn:E2, (old2new so q) eqn:E3; try discriminate.
  injection Ep as <-. simpl in *. rewrite ?Ec in Hb. lia.
Qed.

Theorem brute_lnf_ok n m tab : 0 < n -> 0 < m -> std_table n m tab ->
  exists p s s0, brute_lnf tab n m = Some p /\ ttable_str (lt_tab p) n m = Some s /\ ttable_str tab n m = Some s0 /\
    (p = LnfTM tab 0 0 \/ exists so syo, Permutation so (seq 0 n) /\ Permutation syo (seq 0 m) /\ lnf_permute tab so syo = Some p) /\
    str_ltb s0 s = false /\
    (forall so syo p' s', Permutation so (seq 0 n) -> Permutation syo (seq 0 m) ->
       lnf_permute tab so syo = Some p' -> ttable_str (lt_tab p') n m = Some s' -> str_ltb s' s = false).
Proof.
  intros Hn Hm Hs. pose proof (std_basic _ _ _ Hs) as B. unfold brute_lnf.
  destruct (ttable_str_total n m tab) as (s0 & E0); [apply B| |].
  { intros i j t Et. split; [eapply B; eauto|]. intros Hlt. pose proof (proj2 Hs _ _ _ Et) as X. destruct X; simpl; lia. }
  rewrite E0. destruct (lnf_loop_spec tab n m (list_prod (iter_perms (seq 0 n)) (iter_perms (seq 0 m))) s0 (LnfTM tab 0 0)) as (p & s & E & Es & Hp & Hle & Hmin).
  - intros so syo Hin. apply in_prod_iff in Hin. rewrite !In_perms in Hin. destruct Hin as (Ps & Py).
    destruct (lnf_permute_ok n m tab so syo Hn Hm B Ps Py) as (p & b & t & E & _ & _ & _ & Hp & _).
    destruct (permuted_text _ _ _ _ _ _ _ B Ps Py Hp) as (s & Es). eauto.
  - exact E0.
  - exists p, s, s0. split; [exact E|]. split; [exact Es|]. split; [reflexivity|]. split; [|split; [exact Hle|]].
    + destruct Hp as [-> |(so & syo & Hin & Ep)]; auto. right. apply in_prod_iff in Hin. rewrite !In_perms in Hin. exists so, syo. tauto.
    + intros so syo p' s' Ps Py. apply Hmin. apply in_prod_iff. now rewrite !In_perms.
Qed.
