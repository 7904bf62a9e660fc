(** * Proofs about the format of morphett.info *)
Require Import ZArith List Lia Bool Arith Ascii String.
Require DecimalString DecimalNat FinFun.
From Verif Require Import Spec_TM Spec_Rename M_Turing_Machine P_Stream P_Macro P_Quint M_IO P_IO P_Formats P_Permute M_Morphett.
Import ListNotations.
Open Scope nat_scope.

(** ** Strings *)
Lemma str_eqb_eq x y : str_eqb x y = true <-> x = y.
Proof.
  revert y. induction x as [|a x IH]; intros [|b y]; cbn; split; intros H; try discriminate; auto.
  - apply andb_prop in H. destruct H as (H1 & H2). apply Ascii.eqb_eq in H1. apply IH in H2. congruence.
  - injection H as -> ->. rewrite Ascii.eqb_refl. cbn. now apply IH.
Qed.
Lemma str_eqb_refl x : str_eqb x x = true.
Proof. now apply str_eqb_eq. Qed.
Lemma mem_str_In x l : mem_str x l = true <-> In x l.
Proof.
  unfold mem_str. rewrite existsb_exists. split.
  - intros (y & H & E). apply str_eqb_eq in E. now subst.
  - intros H. exists x. split; auto. apply str_eqb_refl.
Qed.

Lemma index_of_nth x l : forall i, index_of x l = Some i -> nth_error l i = Some x.
Proof.
  induction l as [|y l IH]; cbn; intros i H; [discriminate|]. destruct (str_eqb x y) eqn:E.
  - injection H as <-. apply str_eqb_eq in E. now subst.
  - destruct (index_of x l) as [k|]; [|discriminate]. injection H as <-. cbn. auto.
Qed.
Lemma index_of_In x l : In x l -> exists i, index_of x l = Some i.
Proof.
  induction l as [|y l IH]; cbn; intros H; [contradiction|]. destruct (str_eqb x y) eqn:E; [eauto|].
  destruct H as [-> |H]; [rewrite str_eqb_refl in E; discriminate|]. destruct (IH H) as (i & ->). cbn. eauto.
Qed.
Lemma index_of_notin x l : ~ In x l -> index_of x l = None.
Proof.
  intros H. destruct (index_of x l) as [i|] eqn:E; auto. apply index_of_nth, nth_error_In in E. contradiction.
Qed.
Lemma nth_index x l i : NoDup l -> nth_error l i = Some x -> index_of x l = Some i.
Proof.
  intros N H. destruct (index_of_In x l) as (k & E); [eapply nth_error_In; eauto|]. rewrite E. f_equal.
  apply index_of_nth in E. eapply (proj1 (NoDup_nth_error l) N); [apply nth_error_Some; congruence|congruence].
Qed.

Lemma add_name_In l x y : In y (add_name l x) <-> In y l \/ y = x.
Proof.
  unfold add_name. destruct (mem_str x l) eqn:E.
  - apply mem_str_In in E. split; [auto|]. intros [H| ->]; auto.
  - rewrite in_app_iff. cbn. intuition.
Qed.
Lemma add_name_NoDup l x : NoDup l -> NoDup (add_name l x).
Proof.
  unfold add_name. destruct (mem_str x l) eqn:E; auto. intros N.
  apply NoDup_rev in N. rewrite <- (rev_involutive (l ++ [x])). apply NoDup_rev. rewrite rev_app_distr. cbn.
  constructor; auto. rewrite <- in_rev. intros H. apply mem_str_In in H. congruence.
Qed.
Lemma fold_names_In xs : forall l y, In y (fold_left add_name xs l) <-> In y l \/ In y xs.
Proof.
  induction xs as [|x xs IH]; intros l y; cbn; [intuition|]. rewrite IH, add_name_In. intuition.
Qed.
Lemma fold_names_NoDup xs : forall l, NoDup l -> NoDup (fold_left add_name xs l).
Proof. induction xs as [|x xs IH]; intros l N; cbn; auto. now apply IH, add_name_NoDup. Qed.
Lemma fold_names_prefix xs : forall l, exists r, fold_left add_name xs l = l ++ r.
Proof.
  induction xs as [|x xs IH]; intros l; cbn; [exists []; now rewrite app_nil_r|].
  destruct (IH (add_name l x)) as (r & ->). unfold add_name. destruct (mem_str x l); [eauto|].
  rewrite <- app_assoc. eauto.
Qed.
(** names already there change nothing *)
Lemma fold_names_known xs : forall l, (forall x, In x xs -> In x l) -> fold_left add_name xs l = l.
Proof.
  induction xs as [|x xs IH]; intros l H; cbn; auto. unfold add_name at 2.
  rewrite (proj2 (mem_str_In x l)) by (apply H; now left). apply IH. intros y Hy. apply H. now right.
Qed.

(** ** One line *)
Definition name_char (c : ascii) : Prop := is_space c = false /\ c <> ";"%char /\ c <> "!"%char.
Definition good_name (s : str) : Prop := s <> [] /\ forall c, In c s -> name_char c.

Lemma split_on_none sep s : (forall c, In c s -> c <> sep) -> split_on sep s = [s].
Proof.
  induction s as [|c s IH]; intros H; cbn; auto. destruct (Ascii.eqb_spec c sep) as [E|E].
  - exfalso. apply (H c); [now left|exact E].
  - rewrite IH; auto. intros d Hd. apply H. now right.
Qed.
Lemma filter_all {A} (f : A -> bool) l : (forall x, In x l -> f x = true) -> filter f l = l.
Proof.
  induction l as [|x l IH]; intros H; cbn; auto. rewrite (H x) by now left. f_equal. apply IH. intros y Hy. apply H. now right.
Qed.
Lemma split_words_app s : forall cur rest, (forall c, In c s -> is_space c = false) -> rev cur ++ s <> [] ->
  split_words cur (s ++ " "%char :: rest) = (rev cur ++ s) :: split_words [] rest.
Proof.
  induction s as [|c s IH]; intros cur rest H Hne; cbn [app split_words].
  - change (is_space " ") with true. cbn iota. rewrite app_nil_r in *. destruct cur; [cbn in Hne; congruence|reflexivity].
  - rewrite (H c) by now left. rewrite IH.
    + cbn [rev]. now rewrite <- app_assoc.
    + intros d Hd. apply H. now right.
    + cbn [rev]. rewrite <- app_assoc. exact Hne.
Qed.
Lemma split_words_end s : forall cur, (forall c, In c s -> is_space c = false) -> rev cur ++ s <> [] ->
  split_words cur s = [rev cur ++ s].
Proof.
  induction s as [|c s IH]; intros cur H Hne; cbn [split_words].
  - rewrite app_nil_r in *. destruct cur; [cbn in Hne; congruence|reflexivity].
  - rewrite (H c) by now left. rewrite IH.
    + cbn [rev]. now rewrite <- app_assoc.
    + intros d Hd. apply H. now right.
    + cbn [rev]. rewrite <- app_assoc. exact Hne.
Qed.
Lemma lstrip_head c s : is_space c = false -> lstrip (c :: s) = c :: s.
Proof. intros H. cbn. now rewrite H. Qed.
(** a line that begins and ends with a visible character *)
Lemma strip_line c y d : is_space c = false -> is_space d = false ->
  strip ((c :: y ++ [d]) ++ ["010"%char]) = c :: y ++ [d].
Proof.
  intros Hc Hd. unfold strip. cbn [app]. rewrite lstrip_head by exact Hc.
  change (c :: (y ++ [d]) ++ ["010"%char]) with ((c :: y ++ [d]) ++ ["010"%char]). rewrite rev_app_distr.
  change (rev ["010"%char] ++ rev (c :: y ++ [d])) with ("010"%char :: rev (c :: y ++ [d])).
  change (lstrip ("010"%char :: rev (c :: y ++ [d]))) with (lstrip (rev (c :: y ++ [d]))).
  change (c :: y ++ [d]) with ((c :: y) ++ [d]). rewrite rev_app_distr. change (rev [d] ++ rev (c :: y)) with (d :: rev (c :: y)).
  rewrite lstrip_head by exact Hd. change (d :: rev (c :: y)) with (rev [d] ++ rev (c :: y)).
  now rewrite <- rev_app_distr, rev_involutive.
Qed.
Lemma last_snoc {A} (l : list A) : l <> [] -> exists y d, l = y ++ [d].
Proof. intros H. destruct (exists_last H) as (y & d & ->). eauto. Qed.

Definition next_name (o : option str) : str := match o with Some s => s | None => halt_name end.
(** the text of a named quintuple *)
Definition nline (q : nquint) : str :=
  join " " [nq_state q; nq_symbol q; nq_out q; morphett_dir (nq_dir q); next_name (nq_next q)].
Definition good_nquint (q : nquint) : Prop :=
  good_name (nq_state q) /\ good_name (nq_symbol q) /\ good_name (nq_out q) /\
  match nq_next q with Some s => good_name s /\ is_halt_name s = false | None => True end.

Lemma good_halt : good_name halt_name.
Proof.
  split; [discriminate|]. intros c H. unfold halt_name in H. cbn in H.
  decompose [or] H; subst; try contradiction; (split; [reflexivity|split; discriminate]).
Qed.
Lemma good_dir d : good_name (morphett_dir d).
Proof. destruct d; split; try discriminate; intros c [<-|[]]; (split; [reflexivity|split; discriminate]). Qed.
Lemma good_next q : good_nquint q -> good_name (next_name (nq_next q)).
Proof. intros (_ & _ & _ & H). destruct (nq_next q); [apply H|apply good_halt]. Qed.

Definition line_char (c : ascii) : Prop := name_char c \/ c = " "%char.
Lemma nline_chars q : good_nquint q -> forall c, In c (nline q) -> line_char c.
Proof.
  intros G c. pose proof (good_next q G) as (_ & G5). destruct G as ((_ & G1) & (_ & G2) & (_ & G3) & _).
  pose proof (good_dir (nq_dir q)) as (_ & G4). unfold nline. cbn [join].
  repeat (rewrite in_app_iff; cbn [In]). unfold line_char. intuition.
Qed.
Lemma line_char_not c : line_char c -> c <> ";"%char /\ c <> "!"%char /\ c <> "010"%char.
Proof.
  intros [(H1 & H2 & H3)| ->]; [|repeat split; discriminate]. repeat split; auto. intros ->. discriminate H1.
Qed.

Lemma line_names st sy w d nm : good_name st -> good_name sy -> good_name w -> good_name nm ->
  morphett_line (join " " [st; sy; w; morphett_dir d; nm] ++ ["010"%char]) =
  Some (Some (NQuint st sy w d (if is_halt_name nm then None else Some nm))).
Proof.
  intros (N1 & G1) (N2 & G2) (N3 & G3) (N5 & G5). pose proof (good_dir d) as (N4 & G4).
  set (l := join " " [st; sy; w; morphett_dir d; nm]).
  assert (C : forall c, In c l -> line_char c).
  { intros c. unfold l. cbn [join]. repeat (rewrite in_app_iff; cbn [In]). unfold line_char. intuition. }
  unfold morphett_line.
  assert (Hsp : split_on ";" (l ++ ["010"%char]) = [l ++ ["010"%char]]).
  { apply split_on_none. intros c Hc. apply in_app_iff in Hc. destruct Hc as [Hc|[<-|[]]]; [|discriminate].
    apply C, line_char_not in Hc. apply Hc. }
  rewrite Hsp. rewrite (filter_all (fun c => negb (Ascii.eqb c "!"))).
  2:{ intros c Hc. apply negb_true_iff, Ascii.eqb_neq. apply in_app_iff in Hc. destruct Hc as [Hc|[<-|[]]]; [|discriminate].
      apply C, line_char_not in Hc. apply Hc. }
  assert (Hst : strip (l ++ ["010"%char]) = l).
  { destruct (last_snoc _ N5) as (y & e & Ey). destruct st as [|c s] eqn:Es; [congruence|].
    assert (exists z, l = c :: z ++ [e]) as (z & Ez).
    { unfold l. rewrite Ey. cbn [join]. exists (s ++ " "%char :: sy ++ " "%char :: w ++ " "%char :: morphett_dir d ++ " "%char :: y).
      cbn [app]. f_equal. repeat (rewrite <- app_assoc; cbn [app]). reflexivity. }
    rewrite Ez. apply strip_line.
    - apply G1. now left.
    - apply G5. rewrite Ey. apply in_app_iff. right. now left. }
  rewrite Hst. destruct l as [|c0 l0] eqn:El.
  { exfalso. subst l. cbn [join] in El. destruct st; [congruence|discriminate]. }
  rewrite <- El. subst l. cbn [join].
  assert (W : split_words [] (st ++ " "%char :: sy ++ " "%char :: w ++ " "%char :: morphett_dir d ++ " "%char :: nm) =
              [st; sy; w; morphett_dir d; nm]).
  { rewrite (split_words_app st []) by ((intros c Hc; apply (G1 c Hc)) || (cbn; exact N1)). cbn [rev app]. f_equal.
    rewrite (split_words_app sy []) by ((intros c Hc; apply (G2 c Hc)) || (cbn; exact N2)). cbn [rev app]. f_equal.
    rewrite (split_words_app w []) by ((intros c Hc; apply (G3 c Hc)) || (cbn; exact N3)). cbn [rev app]. f_equal.
    rewrite (split_words_app (morphett_dir d) []) by ((intros c Hc; apply (G4 c Hc)) || (cbn; exact N4)). cbn [rev app]. f_equal.
    rewrite (split_words_end _ []) by ((intros c Hc; apply (G5 c Hc)) || (cbn; exact N5)). reflexivity. }
  rewrite W. replace (find_lr (morphett_dir d)) with (Some d) by (destruct d; reflexivity). reflexivity.
Qed.
Lemma line_ok q : good_nquint q -> morphett_line (nline q ++ ["010"%char]) = Some (Some q).
Proof.
  intros G. pose proof (good_next q G) as G5. destruct G as (G1 & G2 & G3 & Hnext). unfold nline. rewrite line_names by auto.
  destruct q as [a b w d [nx|]]; cbn in *; [|reflexivity]. destruct Hnext as (_ & ->). reflexivity.
Qed.

(** *** lines that are skipped *)
Definition nl : ascii := "010"%char.
(** whole lines: every line ends with a line feed *)
Definition whole_lines (x : str) : Prop := x = [] \/ exists y, x = y ++ [nl].
Lemma whole_split x : whole_lines x -> x = [] \/ exists l r, x = l ++ nl :: r /\ (forall c, In c l -> Ascii.eqb c nl = false) /\ whole_lines r.
Proof.
  intros [->|(y & ->)]; [now left|]. right. induction y as [|c y IH].
  - exists [], []. split; [reflexivity|]. split; [intros c []|]. now left.
  - cbn [app]. destruct (Ascii.eqb c nl) eqn:E.
    + apply Ascii.eqb_eq in E. subst c. exists [], (y ++ [nl]). split; [reflexivity|]. split; [intros c []|]. right. eauto.
    + destruct IH as (l & r & E1 & H & W). exists (c :: l), r. rewrite E1. split; [reflexivity|]. split; [|exact W]. intros d [<- |Hd]; auto.
Qed.
Lemma readline_len s : s <> [] -> List.length (snd (readline s)) < List.length s.
Proof.
  induction s as [|c s IH]; [congruence|]. intros _. cbn [readline]. destruct (Ascii.eqb c "010"); cbn [snd List.length]; [lia|].
  destruct (readline s) as [l r] eqn:E. cbn [snd] in *. destruct s as [|d s]; [injection E as <- <-; cbn; lia|]. specialize (IH ltac:(discriminate)). cbn [List.length] in *. lia.
Qed.
Lemma file_lines_fuel s : forall f g, List.length s < f -> List.length s < g -> file_lines f s = file_lines g s.
Proof.
  induction s as [s IH] using (well_founded_induction (Wf_nat.well_founded_ltof _ (@List.length ascii))).
  intros [|f] [|g] Hf Hg; try lia. cbn [file_lines]. destruct s as [|c s]; [reflexivity|]. pose proof (readline_len (c :: s) ltac:(discriminate)) as L.
  destruct (readline (c :: s)) as [l r]. cbn [snd] in L. f_equal. apply IH; [exact L|lia|lia].
Qed.
Definition lines_of (s : str) : list str := file_lines (S (List.length s)) s.
Lemma lines_step l r : (forall c, In c l -> Ascii.eqb c nl = false) -> lines_of (l ++ nl :: r) = (l ++ [nl]) :: lines_of r.
Proof.
  intros H. unfold lines_of at 1. cbn [file_lines]. destruct (l ++ nl :: r) as [|c0 s0] eqn:E; [destruct l; discriminate|]. rewrite <- E. unfold nl at 2. rewrite readline_app by exact H.
  f_equal. apply file_lines_fuel; rewrite ?E, ?app_length; cbn [List.length]; [|lia].
  apply (f_equal (@List.length _)) in E. rewrite app_length in E. cbn [List.length] in *. lia.
Qed.
Lemma lines_app x y : whole_lines x -> lines_of (x ++ y) = lines_of x ++ lines_of y.
Proof.
  induction x as [x IH] using (well_founded_induction (Wf_nat.well_founded_ltof _ (@List.length ascii))). intros W.
  destruct (whole_split x W) as [->|(l & r & -> & H & Wr)]; [reflexivity|]. rewrite <- app_assoc. cbn [app]. rewrite !lines_step by exact H. cbn [app]. f_equal.
  apply IH; [|exact Wr]. unfold Wf_nat.ltof. rewrite app_length. cbn [List.length]. lia.
Qed.
(** only white space and breakpoint marks before a comment *)
Definition noise (l : str) : Prop := (forall c, In c l -> c <> nl) /\
  exists ws rest, l = ws ++ rest /\ (forall c, In c ws -> is_space c = true \/ c = "!"%char) /\ (rest = [] \/ exists k, rest = ";"%char :: k).
Lemma lstrip_spaces s : (forall c, In c s -> is_space c = true) -> lstrip s = [].
Proof. induction s as [|c s IH]; intros H; [reflexivity|]. cbn. rewrite (H c) by now left. apply IH. intros d Hd. apply H. now right. Qed.
Lemma noise_line l : noise l -> morphett_line (l ++ [nl]) = Some None.
Proof.
  intros (_ & ws & rest & -> & Hw & Hr). unfold morphett_line.
  assert (E : exists t, (forall c, In c t -> is_space c = true \/ c = "!"%char) /\
            match split_on ";" ((ws ++ rest) ++ [nl]) with l :: _ => l | [] => [] end = t).
  { destruct Hr as [->|(k & ->)].
    - rewrite app_nil_r. exists (ws ++ [nl]). split.
      + intros c Hc. apply in_app_iff in Hc as [Hc|[<- |[]]]; [auto|left; reflexivity].
      + rewrite split_on_none; [reflexivity|]. intros c Hc ->. apply in_app_iff in Hc as [Hc|[Hc|[]]]; [destruct (Hw _ Hc); discriminate|discriminate].
    - exists ws. split; [exact Hw|]. rewrite <- app_assoc. cbn [app]. clear -Hw. induction ws as [|c ws IH]; [reflexivity|]. cbn [app split_on].
      destruct (Ascii.eqb_spec c ";") as [-> |N]; [destruct (Hw ";"%char) as [H|H]; [now left|discriminate|discriminate]|].
      specialize (IH ltac:(intros d Hd; apply Hw; now right)). destruct (split_on ";" (ws ++ _)) as [|w0 l0]; [|f_equal; exact IH].
      rewrite <- IH. reflexivity. }
  destruct E as (t & Ht & ->). assert (S0 : strip (filter (fun c => negb (Ascii.eqb c "!")) t) = []); [|rewrite S0; reflexivity].
  unfold strip. rewrite (lstrip_spaces (filter _ t)); [reflexivity|]. intros c Hc. apply filter_In in Hc as [Hc Hn]. destruct (Ht c Hc) as [H| ->]; [exact H|discriminate].
Qed.
Definition quints_of (s : str) : option (list nquint) :=
  option_map (flat_map (fun o => match o with Some q => [q] | None => [] end)) (otraverse (map morphett_line (lines_of s))).
Lemma read_quints s t : quints_of s = quints_of t -> morphett_read s = morphett_read t.
Proof.
  unfold quints_of, morphett_read, lines_of. intros E.
  destruct (otraverse (map morphett_line (file_lines (S (List.length s)) s))), (otraverse (map morphett_line (file_lines (S (List.length t)) t))); try discriminate; auto.
  cbn [option_map] in E. injection E as E. now rewrite E.
Qed.
Lemma quints_app x y : whole_lines x -> quints_of (x ++ y) =
  match quints_of x, quints_of y with Some a, Some b => Some (a ++ b) | _, _ => None end.
Proof.
  intros W. unfold quints_of. rewrite lines_app by exact W. rewrite map_app. induction (lines_of x) as [|l ls IH]; cbn [map app otraverse].
  - destruct (otraverse (map morphett_line (lines_of y))); reflexivity.
  - destruct (morphett_line l) as [o|]; [|reflexivity].
    destruct (otraverse (map morphett_line ls ++ map morphett_line (lines_of y))), (otraverse (map morphett_line ls)), (otraverse (map morphett_line (lines_of y)));
      cbn [option_map] in *; try discriminate; auto. injection IH as IH. cbn [flat_map]. rewrite IH, app_assoc. reflexivity.
Qed.
Lemma quints_noise l : noise l -> quints_of (l ++ [nl]) = Some [].
Proof.
  intros N. unfold quints_of. rewrite lines_step.
  - cbn [map]. rewrite (noise_line l N). reflexivity.
  - intros c Hc. apply Ascii.eqb_neq. now apply (proj1 N).
Qed.

Lemma file_lines_ok qs : Forall good_nquint qs -> forall fuel,
  let s := List.concat (map (fun q => nline q ++ ["010"%char]) qs) in
  List.length s < fuel -> file_lines fuel s = map (fun q => nline q ++ ["010"%char]) qs.
Proof.
  induction 1 as [|q qs G F IH]; intros fuel s Hf; unfold s in *; cbn [map List.concat] in *.
  - destruct fuel; reflexivity.
  - destruct fuel as [|fuel]; [lia|]. cbn [file_lines].
    destruct ((nline q ++ ["010"%char]) ++ List.concat (map (fun q => nline q ++ ["010"%char]) qs)) as [|c0 l0] eqn:E.
    { destruct (nline q); discriminate. }
    rewrite <- E. rewrite <- app_assoc. cbn [app]. rewrite readline_app.
    + f_equal. apply IH. apply (f_equal (@List.length _)) in E. rewrite !app_length in E. cbn [List.length] in *. lia.
    + intros c Hc. apply Ascii.eqb_neq. apply (nline_chars q G), line_char_not in Hc. apply Hc.
Qed.

Lemma otraverse_some {A B} (f : A -> option B) (g : A -> B) l : (forall x, In x l -> f x = Some (g x)) -> otraverse (map f l) = Some (map g l).
Proof.
  induction l as [|x l IH]; intros H; cbn; auto. rewrite (H x) by now left. rewrite IH; auto. intros y Hy. apply H. now right.
Qed.
(** the quintuples written are the quintuples read *)
Lemma read_lines qs : Forall good_nquint qs ->
  let s := List.concat (map (fun q => nline q ++ ["010"%char]) qs) in
  otraverse (map morphett_line (file_lines (S (List.length s)) s)) = Some (map Some qs).
Proof.
  intros F s. rewrite (file_lines_ok qs F) by (fold s; lia). rewrite map_map.
  apply (otraverse_some _ (fun q => Some q)). rewrite Forall_forall in F. intros q Hq. now apply line_ok, F.
Qed.

Definition names_of (qs : list nquint) : list str * list str :=
  (fold_left add_name (map nq_state qs) [], fold_left add_name (map nq_symbol qs) [blank_name]).
Lemma read_text_of qs : Forall good_nquint qs ->
  morphett_read (List.concat (map (fun q => nline q ++ ["010"%char]) qs)) =
  match otraverse (map (quint_of_names (fst (names_of qs)) (snd (names_of qs))) qs) with
  | None => None
  | Some l => option_map (fun tab => (tab, fst (names_of qs), snd (names_of qs)))
                (tm_from_quintuples l (List.length (fst (names_of qs))) (List.length (snd (names_of qs))))
  end.
Proof.
  intros F. unfold morphett_read. rewrite (read_lines qs F).
  replace (flat_map (fun o => match o with Some q => [q] | None => [] end) (map Some qs)) with qs; [reflexivity|].
  clear F. induction qs as [|q qs IH]; cbn; congruence.
Qed.

(** ** What is written *)
Definition cell_nq (states symbols : list str) (i j : nat) (t : transition nat sstate) : option nquint :=
  match t_cond t with
  | UNDEFINED => None
  | _ => Some (NQuint (nth i states []) (nth j symbols []) (nth (t_sym t) symbols []) (t_dir t)
                 match t_state t with SRun q => Some (nth q states []) | SHalt => None end)
  end.
Definition grid_nq (states symbols : list str) (tab : ttable) (a : nat * nat) : list nquint :=
  match cell tab (fst a) (snd a) with
  | Some t => match cell_nq states symbols (fst a) (snd a) t with Some q => [q] | None => [] end
  | None => []
  end.
Definition written (states symbols : list str) (tab : ttable) : list nquint :=
  flat_map (grid_nq states symbols tab) (list_prod (seq 0 (List.length states)) (seq 0 (List.length symbols))).

Lemma cell_simple tab i j : cell tab i j = simple_trans tab j (SRun i).
Proof. reflexivity. Qed.
Lemma std_rect_cell n m tab i j : std_table n m tab -> i < n -> j < m -> exists t, cell tab i j = Some t /\ std_cell n m i j t.
Proof. intros (Hr & Hc) Hi Hj. destruct (rect_cell n m tab i j Hr Hi Hj) as (t & E). eauto. Qed.

Lemma write_ok tab states symbols sy : rename_blank symbols = Some sy ->
  std_table (List.length states) (List.length sy) tab ->
  morphett_write tab states symbols = Some (List.concat (map (fun q => nline q ++ ["010"%char]) (written states sy tab))).
Proof.
  intros Er Hs. unfold morphett_write. rewrite Er. unfold written.
  set (f := fun a : nat * nat => List.concat (map (fun q => nline q ++ ["010"%char]) (grid_nq states sy tab a))).
  rewrite (otraverse_some _ f).
  - cbn [option_map]. f_equal. generalize (list_prod (seq 0 (List.length states)) (seq 0 (List.length sy))). intros l.
    induction l as [|a l IH]; cbn [map List.concat flat_map]; auto. rewrite IH, map_app, concat_app. reflexivity.
  - intros (i, j) Ha. cbn [fst snd]. apply in_prod_iff in Ha. rewrite !in_seq in Ha. destruct Ha as (Hi & Hj).
    destruct (std_rect_cell _ _ tab i j Hs) as (t & E & St); [lia|lia|].
    unfold f, grid_nq. cbn [fst snd]. rewrite <- cell_simple, E.
    assert (X : forall k (l : list str), k < List.length l -> nth_error l k = Some (nth k l [])) by (intros; apply nth_error_nth'; auto).
    destruct St as [|w d Hw|w d q Hw Hq]; unfold morphett_cell, cell_nq; cbn [t_cond t_state t_sym t_dir].
    + reflexivity.
    + rewrite (X i states), (X j sy), (X w sy) by lia. cbn [map List.concat]. rewrite app_nil_r. reflexivity.
    + rewrite (X i states), (X j sy), (X w sy), (X q states) by lia. cbn [map List.concat]. rewrite app_nil_r. reflexivity.
Qed.

Lemma otraverse_map_iff {A B} (h : A -> option B) l : forall l', otraverse (map h l) = Some l' ->
  (forall x, In x l -> exists y, h x = Some y /\ In y l') /\ (forall y, In y l' -> exists x, In x l /\ h x = Some y).
Proof.
  induction l as [|x l IH]; cbn; intros l' E.
  - injection E as <-. split; intros ? [].
  - destruct (h x) as [y|] eqn:Ex; [|discriminate]. destruct (otraverse (map h l)) as [r|]; [|discriminate]. injection E as <-.
    destruct (IH r eq_refl) as (I1 & I2). split.
    + intros x' [<-|H]; [exists y; cbn; auto|]. destruct (I1 x' H) as (y' & E' & H'). exists y'. cbn. auto.
    + intros y' [<-|H]; [exists x; cbn; auto|]. destruct (I2 y' H) as (x' & H' & E'). exists x'. cbn. auto.
Qed.
Lemma otraverse_map_some {A B} (h : A -> option B) l : (forall x, In x l -> exists y, h x = Some y) -> exists l', otraverse (map h l) = Some l'.
Proof.
  induction l as [|x l IH]; cbn; intros H; [eauto|]. destruct (H x) as (y & ->); [now left|].
  destruct IH as (r & ->); eauto.
Qed.

(** ** What has to be in the file *)

(** the cell is given, by a running transition or an explicit halt *)
Definition defined_at (M : table) (i j : nat) : Prop := forall w d, M i j <> Stop w d false.
Definition has_row (M : table) (i : nat) : Prop := exists j, defined_at M i j.
Definition is_read (M : table) (j : nat) : Prop := j = 0 \/ exists i, defined_at M i j.
(** every state that is entered has a transition, every symbol that is written is read *)
Definition covered (M : table) : Prop := forall i j,
  match M i j with
  | Go w _ q => is_read M w /\ has_row M q
  | Stop w _ true => is_read M w
  | Stop _ _ false => True
  end.
(** the two tables are the same but for the names *)
Definition same_cells (f g : nat -> nat) (n m : nat) (T T' : table) : Prop := forall i j, i < n -> j < m ->
  match T i j with
  | Go w d q => T' (f i) (g j) = Go (g w) d (f q)
  | Stop w d true => T' (f i) (g j) = Stop (g w) d true
  | Stop _ _ false => T' (f i) (g j) = Stop 1 R false
  end.

Lemma same_cells_run f g n m T T' : in_range n m T -> same_cells f g n m T T' -> forall k c c',
  renames f g false c c' -> st c < n -> (forall z, tp c z < m) ->
  match steps T k c, steps T' k c' with
  | Some x, Some y => renames f g false x y /\ st x < n /\ (forall z, tp x z < m)
  | None, None => True
  | _, _ => False
  end.
Proof.
  intros Hr Hc. induction k as [|k IH]; intros c c' R Hs Ht; [cbn; auto|].
  cbn [steps]. unfold step. pose proof (renames_read _ _ _ _ _ R) as Rr. pose proof R as (Rs & _). rewrite Rs, Rr.
  pose proof (Hc (st c) (tp c (hd c)) Hs (Ht _)) as H. destruct (T (st c) (tp c (hd c))) as [w d q|w d [|]] eqn:E.
  - rewrite H. destruct (Hr _ _ _ _ _ Hs (Ht _) E) as (Hw & Hq). apply IH.
    + exact (renames_put f g false c c' w d q R).
    + exact Hq.
    + intros z. cbn. unfold put. destruct (Z.eqb z (hd c)); auto.
  - rewrite H. exact I.
  - rewrite H. exact I.
Qed.

Lemma table_cell tab i j : table_of tab i j = match cell tab i j with
  | Some t => match t_cond t, t_state t with
              | RUNNING, SRun q' => Go (t_sym t) (t_dir t) q'
              | HALT, _ => Stop (t_sym t) (t_dir t) true
              | _, _ => Stop (t_sym t) (t_dir t) false
              end
  | None => Stop 1 R false
  end.
Proof. unfold table_of, cell. unfold ttable, trans_row in *. destruct (nth_error tab i); reflexivity. Qed.

Lemma defined_cell n m tab i j : std_table n m tab ->
  defined_at (table_of tab) i j <-> exists t, cell tab i j = Some t /\ t_cond t <> UNDEFINED.
Proof.
  intros (Hr & Hs). unfold defined_at. rewrite table_cell. destruct (cell tab i j) as [t|] eqn:E.
  - specialize (Hs _ _ _ E). destruct Hs; cbn; split.
    + intros H. now destruct (H 1 R).
    + intros (t & [= <-] & H). cbn in H. congruence.
    + intros _. eexists. split; [reflexivity|discriminate].
    + intros _ w' d' H'. discriminate.
    + intros _. eexists. split; [reflexivity|discriminate].
    + intros _ w' d' H'. discriminate.
  - split; [intros H; now destruct (H 1 R)|intros (t & H & _); discriminate].
Qed.

Section Back.
  Variables (tab : ttable) (states sy : list str).
  Notation n := (List.length states).
  Notation m := (List.length sy).
  Hypothesis Std : std_table n m tab.
  Hypothesis Sblank : nth_error sy 0 = Some blank_name.
  Hypothesis N1 : NoDup states.
  Hypothesis N2 : NoDup sy.
  Hypothesis G1 : forall s, In s states -> good_name s /\ is_halt_name s = false.
  Hypothesis G2 : forall s, In s sy -> good_name s.

  Definition names1 : list str := fst (names_of (written states sy tab)).
  Definition names2 : list str := snd (names_of (written states sy tab)).
  Arguments names1 : simpl never.
  Arguments names2 : simpl never.
  (** the numbers of a state and of a symbol in the machine read back *)
  Definition new_state (i : nat) : nat := match index_of (nth i states []) names1 with Some k => k | None => List.length names1 + i end.
  Definition new_symbol (j : nat) : nat := match index_of (nth j sy []) names2 with Some k => k | None => List.length names2 + j end.

  Lemma written_In q : In q (written states sy tab) <->
    exists i j t, cell tab i j = Some t /\ cell_nq states sy i j t = Some q.
  Proof.
    unfold written. rewrite in_flat_map. split.
    - intros ((i, j) & _ & H). unfold grid_nq in H. cbn [fst snd] in H. destruct (cell tab i j) as [t|] eqn:E; [|contradiction].
      destruct (cell_nq states sy i j t) as [q'|] eqn:E'; [|contradiction]. destruct H as [<-|[]]. eauto 6.
    - intros (i & j & t & E & E'). exists (i, j). split.
      + destruct (cell_bounds _ _ _ _ _ _ (proj1 Std) E). apply in_prod_iff. rewrite !in_seq. lia.
      + unfold grid_nq. cbn [fst snd]. rewrite E, E'. now left.
  Qed.
  Lemma state_name i : i < n -> nth_error states i = Some (nth i states []).
  Proof. apply nth_error_nth'. Qed.
  Lemma symbol_name j : j < m -> nth_error sy j = Some (nth j sy []).
  Proof. apply nth_error_nth'. Qed.
  Lemma state_In i : i < n -> In (nth i states []) states.
  Proof. intros H. apply nth_In, H. Qed.
  Lemma symbol_In j : j < m -> In (nth j sy []) sy.
  Proof. intros H. apply nth_In, H. Qed.
  Lemma state_name_inj i i' : i < n -> i' < n -> nth i states [] = nth i' states [] -> i = i'.
  Proof. apply (proj1 (NoDup_nth states []) N1). Qed.
  Lemma symbol_name_inj j j' : j < m -> j' < m -> nth j sy [] = nth j' sy [] -> j = j'.
  Proof. apply (proj1 (NoDup_nth sy []) N2). Qed.

  Lemma written_good : Forall good_nquint (written states sy tab).
  Proof.
    apply Forall_forall. intros q H. apply written_In in H. destruct H as (i & j & t & E & E').
    destruct (cell_bounds _ _ _ _ _ _ (proj1 Std) E) as (Hi & Hj). pose proof (proj2 Std _ _ _ E) as S.
    destruct S as [|w d Hw|w d q' Hw Hq]; unfold cell_nq in E'; cbn in E'; [discriminate| |]; injection E' as <-; unfold good_nquint; cbn.
    - split; [apply G1, state_In, Hi|]. split; [apply G2, symbol_In, Hj|]. split; [apply G2, symbol_In, Hw|exact I].
    - split; [apply G1, state_In, Hi|]. split; [apply G2, symbol_In, Hj|]. split; [apply G2, symbol_In, Hw|apply G1, state_In, Hq].
  Qed.

  Lemma names1_NoDup : NoDup names1.
  Proof. apply fold_names_NoDup. constructor. Qed.
  Lemma names2_NoDup : NoDup names2.
  Proof. apply fold_names_NoDup. repeat constructor. intros []. Qed.
  Lemma names1_In i : i < n -> In (nth i states []) names1 <-> has_row (table_of tab) i.
  Proof.
    intros Hi. unfold names1, names_of. cbn [fst]. rewrite fold_names_In, in_map_iff. unfold has_row. split.
    - intros [[]|(q & Eq & H)]. apply written_In in H. destruct H as (i' & j & t & E & E').
      destruct (cell_bounds _ _ _ _ _ _ (proj1 Std) E) as (Hi' & Hj).
      exists j. apply (defined_cell _ _ _ _ _ Std). exists t. unfold cell_nq in E'.
      assert (Hd : t_cond t <> UNDEFINED) by (intros X; rewrite X in E'; discriminate).
      destruct (t_cond t) eqn:Ec; try congruence; injection E' as <-; cbn in Eq; apply state_name_inj in Eq; auto; subst i';
        (split; [exact E|discriminate]).
    - intros (j & H). right. apply (defined_cell _ _ _ _ _ Std) in H. destruct H as (t & E & Hd).
      assert (exists q, cell_nq states sy i j t = Some q /\ nq_state q = nth i states []) as (q & E' & Eq)
        by (unfold cell_nq; destruct (t_cond t); try congruence; eexists; (split; [reflexivity|reflexivity])).
      exists q. split; auto. apply written_In. eauto 6.
  Qed.
  Lemma names2_In j : j < m -> In (nth j sy []) names2 <-> is_read (table_of tab) j.
  Proof.
    intros Hj. unfold names2, names_of. cbn [snd]. rewrite fold_names_In, in_map_iff. unfold is_read.
    assert (B0 : nth 0 sy [] = blank_name) by now apply nth_error_nth.
    assert (M0 : 0 < m) by (apply nth_error_Some; congruence). split.
    - intros [[E|[]]|(q & Eq & H)].
      + left. apply symbol_name_inj; auto. congruence.
      + apply written_In in H. destruct H as (i & j' & t & E & E').
        destruct (cell_bounds _ _ _ _ _ _ (proj1 Std) E) as (Hi & Hj').
        right. exists i. apply (defined_cell _ _ _ _ _ Std). exists t. unfold cell_nq in E'.
        assert (Hd : t_cond t <> UNDEFINED) by (intros X; rewrite X in E'; discriminate).
        destruct (t_cond t) eqn:Ec; try congruence; injection E' as <-; cbn in Eq; apply symbol_name_inj in Eq; auto; subst j';
          (split; [exact E|discriminate]).
    - intros [-> |(i & H)]; [left; left; congruence|]. right. apply (defined_cell _ _ _ _ _ Std) in H. destruct H as (t & E & Hd).
      assert (exists q, cell_nq states sy i j t = Some q /\ nq_symbol q = nth j sy []) as (q & E' & Eq)
        by (unfold cell_nq; destruct (t_cond t); try congruence; eexists; (split; [reflexivity|reflexivity])).
      exists q. split; auto. apply written_In. eauto 6.
  Qed.

  Lemma new_state_row i : i < n -> has_row (table_of tab) i -> index_of (nth i states []) names1 = Some (new_state i).
  Proof. intros Hi H. apply names1_In, index_of_In in H; auto. destruct H as (k & E). unfold new_state. now rewrite E. Qed.
  Lemma new_symbol_read j : j < m -> is_read (table_of tab) j -> index_of (nth j sy []) names2 = Some (new_symbol j).
  Proof. intros Hj H. apply names2_In, index_of_In in H; auto. destruct H as (k & E). unfold new_symbol. now rewrite E. Qed.
  Lemma index_lt x l k : index_of x l = Some k -> k < List.length l.
  Proof. intros E. apply index_of_nth in E. apply nth_error_Some. congruence. Qed.
  Lemma new_state_inj i i' : i < n -> i' < n -> new_state i = new_state i' -> i = i'.
  Proof.
    intros Hi Hi'. unfold new_state. destruct (index_of (nth i states []) names1) as [k|] eqn:E, (index_of (nth i' states []) names1) as [k'|] eqn:E'; intros X.
    - subst k'. apply index_of_nth in E, E'. apply state_name_inj; auto. congruence.
    - apply index_lt in E. lia.
    - apply index_lt in E'. lia.
    - lia.
  Qed.
  Lemma new_symbol_inj j j' : j < m -> j' < m -> new_symbol j = new_symbol j' -> j = j'.
  Proof.
    intros Hi Hi'. unfold new_symbol. destruct (index_of (nth j sy []) names2) as [k|] eqn:E, (index_of (nth j' sy []) names2) as [k'|] eqn:E'; intros X.
    - subst k'. apply index_of_nth in E, E'. apply symbol_name_inj; auto. congruence.
    - apply index_lt in E. lia.
    - apply index_lt in E'. lia.
    - lia.
  Qed.
  Lemma new_blank : new_symbol 0 = 0.
  Proof.
    assert (M0 : 0 < m) by (apply nth_error_Some; congruence).
    assert (B0 : nth 0 sy [] = blank_name) by now apply nth_error_nth.
    unfold new_symbol. rewrite B0, (nth_index blank_name names2 0); auto using names2_NoDup.
    unfold names2, names_of. cbn [snd]. destruct (fold_names_prefix (map nq_symbol (written states sy tab)) [blank_name]) as (r & ->). reflexivity.
  Qed.

  (** the numbered quintuple of a cell *)
  Definition new_quint (i j : nat) (t : transition nat sstate) : quint :=
    Quint (new_state i) (new_symbol j) (Some (new_symbol (t_sym t))) (t_dir t)
          match t_state t with SRun q => SRun (new_state q) | SHalt => SHalt end.
  Lemma conv_cell i j t q : covered (table_of tab) -> cell tab i j = Some t -> cell_nq states sy i j t = Some q ->
    quint_of_names names1 names2 q = Some (new_quint i j t).
  Proof.
    intros Cov E E'. destruct (cell_bounds _ _ _ _ _ _ (proj1 Std) E) as (Hi & Hj). pose proof (proj2 Std _ _ _ E) as S.
    assert (D : defined_at (table_of tab) i j).
    { apply (defined_cell _ _ _ _ _ Std). exists t. split; auto. intros X. unfold cell_nq in E'. rewrite X in E'. discriminate. }
    specialize (Cov i j). rewrite table_cell, E in Cov.
    assert (Ri : has_row (table_of tab) i) by (exists j; auto). assert (Rj : is_read (table_of tab) j) by (right; exists i; auto).
    destruct S as [|w d Hw|w d q' Hw Hq]; unfold cell_nq in E'; cbn in E', Cov; [discriminate| |]; injection E' as <-;
      unfold quint_of_names, new_quint; cbn.
    - rewrite (new_state_row i), (new_symbol_read j), (new_symbol_read w) by auto. reflexivity.
    - destruct Cov as (Cw & Cq). rewrite (new_state_row i), (new_symbol_read j), (new_symbol_read w), (new_state_row q') by auto. reflexivity.
  Qed.

  Lemma last_row_one qs i j q : In q qs -> row_for i j q = true -> (forall q', In q' qs -> row_for i j q' = true -> q' = q) -> last_row qs i j = Some q.
  Proof.
    intros H E U. destruct (last_row qs i j) as [q'|] eqn:El.
    - unfold last_row in El. apply find_some in El. destruct El as (El & X). apply in_rev in El. f_equal. now apply U.
    - unfold last_row in El. apply find_none with (x := q) in El; [congruence|]. now apply in_rev in H.
  Qed.
  Lemma last_row_none qs i j : (forall q', In q' qs -> row_for i j q' = false) -> last_row qs i j = None.
  Proof.
    intros U. destruct (last_row qs i j) as [q'|] eqn:El; auto.
    unfold last_row in El. apply find_some in El. destruct El as (El & X). apply in_rev in El. rewrite (U q' El) in X. discriminate.
  Qed.

  Notation text := (List.concat (map (fun q => nline q ++ ["010"%char]) (written states sy tab))).

  Lemma read_back : covered (table_of tab) -> exists tab',
    morphett_read text = Some (tab', names1, names2) /\ std_table (List.length names1) (List.length names2) tab' /\
    forall i j, i < n -> j < m ->
      match cell tab i j with
      | Some t => match t_cond t with
                  | UNDEFINED => forall i', i' = new_state i -> forall j', j' = new_symbol j -> i' < List.length names1 -> j' < List.length names2 ->
                                   cell tab' i' j' = Some (undefined_trans j' i')
                  | _ => cell tab' (new_state i) (new_symbol j) = Some (row_trans (new_quint i j t))
                  end
      | None => True
      end.
  Proof.
    intros Cov. rewrite (read_text_of _ written_good). fold names1 names2.
    destruct (otraverse_map_some (quint_of_names names1 names2) (written states sy tab)) as (qs & Eqs).
    { intros q H. apply written_In in H. destruct H as (i & j & t & E & E'). exists (new_quint i j t). eapply conv_cell; eauto. }
    rewrite Eqs. destruct (otraverse_map_iff _ _ _ Eqs) as (I1 & I2).
    assert (Q1 : forall i j t, cell tab i j = Some t -> t_cond t <> UNDEFINED -> In (new_quint i j t) qs).
    { intros i j t E Hd. assert (exists q, cell_nq states sy i j t = Some q) as (q & E') by (unfold cell_nq; destruct (t_cond t); try congruence; eauto).
      destruct (I1 q) as (y & Ey & Hy); [apply written_In; eauto 6|]. rewrite (conv_cell i j t q Cov E E') in Ey. injection Ey as <-. exact Hy. }
    assert (Q2 : forall y, In y qs -> exists i j t, cell tab i j = Some t /\ t_cond t <> UNDEFINED /\ y = new_quint i j t).
    { intros y Hy. destruct (I2 y Hy) as (q & Hq & Ey). apply written_In in Hq. destruct Hq as (i & j & t & E & E').
      rewrite (conv_cell i j t q Cov E E') in Ey. injection Ey as <-. exists i, j, t. split; auto. split; auto.
      intros X. unfold cell_nq in E'. rewrite X in E'. discriminate. }
    assert (Rg : Forall (row_in_range (List.length names1) (List.length names2)) qs).
    { apply Forall_forall. intros y Hy. destruct (Q2 y Hy) as (i & j & t & E & Hd & ->).
      destruct (cell_bounds _ _ _ _ _ _ (proj1 Std) E) as (Hi & Hj). pose proof (proj2 Std _ _ _ E) as S.
      assert (D : defined_at (table_of tab) i j) by (apply (defined_cell _ _ _ _ _ Std); eauto).
      assert (Ri : has_row (table_of tab) i) by (exists j; auto). assert (Rj : is_read (table_of tab) j) by (right; exists i; auto).
      specialize (Cov i j). rewrite table_cell, E in Cov.
      unfold row_in_range, new_quint. cbn. pose proof (index_lt _ _ _ (new_state_row i Hi Ri)). pose proof (index_lt _ _ _ (new_symbol_read j Hj Rj)).
      split; auto. split; auto. destruct S as [|w d Hw|w d q' Hw Hq]; cbn in *; [congruence| |].
      - pose proof (index_lt _ _ _ (new_symbol_read w Hw Cov)). auto.
      - destruct Cov as (Cw & Cq). pose proof (index_lt _ _ _ (new_symbol_read w Hw Cw)). pose proof (index_lt _ _ _ (new_state_row q' Hq Cq)). auto. }
    destruct (tm_from_quintuples qs (List.length names1) (List.length names2)) as [tab'|] eqn:Et.
    2:{ exfalso. unfold tm_from_quintuples in Et. destruct (add_quints _ _ _ qs) eqn:Ea; [discriminate|]. eapply add_quints_total; eauto. }
    exists tab'. split; [reflexivity|]. split; [eapply quintuples_std; eauto|].
    intros i j Hi Hj. destruct (cell tab i j) as [t|] eqn:E; [|exact I].
    assert (U : forall y, In y qs -> row_for (new_state i) (new_symbol j) y = true -> y = new_quint i j t /\ t_cond t <> UNDEFINED).
    { intros y Hy X. destruct (Q2 y Hy) as (i' & j' & t' & E' & Hd & ->). destruct (cell_bounds _ _ _ _ _ _ (proj1 Std) E') as (Hi' & Hj').
      unfold row_for, new_quint in X. cbn in X. rewrite !andb_true_iff, !Nat.eqb_eq in X. destruct X as ((X1 & X2) & _).
      apply new_state_inj in X1; auto. apply new_symbol_inj in X2; auto. subst i' j'. rewrite E in E'. injection E' as <-. auto. }
    assert (Df : t_cond t <> UNDEFINED -> cell tab' (new_state i) (new_symbol j) = Some (row_trans (new_quint i j t))).
    { intros Hd. pose proof (Q1 i j t E Hd) as Hin.
      pose proof Rg as Rg'. rewrite Forall_forall in Rg'. pose proof (Rg' _ Hin) as Rq. unfold row_in_range in Rq. cbn in Rq.
      rewrite (quintuples_cells _ _ _ _ _ _ Et) by apply Rq.
      rewrite (last_row_one qs _ _ (new_quint i j t)); auto.
      - unfold row_for, new_quint. cbn. now rewrite !Nat.eqb_refl.
      - intros y Hy X. now destruct (U y Hy X). }
    destruct (t_cond t) eqn:Ec; try (apply Df; congruence).
    intros i' -> j' -> Li Lj. rewrite (quintuples_cells _ _ _ _ _ _ Et Li Lj). rewrite last_row_none; auto.
    intros y Hy. destruct (row_for (new_state i) (new_symbol j) y) eqn:X; auto. destruct (U y Hy X). congruence.
  Qed.

  Lemma read_same_cells tab' : std_table (List.length names1) (List.length names2) tab' ->
    (forall i j, i < n -> j < m ->
      match cell tab i j with
      | Some t => match t_cond t with
                  | UNDEFINED => forall i', i' = new_state i -> forall j', j' = new_symbol j -> i' < List.length names1 -> j' < List.length names2 ->
                                   cell tab' i' j' = Some (undefined_trans j' i')
                  | _ => cell tab' (new_state i) (new_symbol j) = Some (row_trans (new_quint i j t))
                  end
      | None => True
      end) -> same_cells new_state new_symbol n m (table_of tab) (table_of tab').
  Proof.
    intros Std' H i j Hi Hj. specialize (H i j Hi Hj). destruct (std_rect_cell n m tab i j Std Hi Hj) as (t & E & S).
    rewrite (table_cell tab), (table_cell tab'), E. rewrite E in H.
    destruct S as [|w d Hw|w d q Hw Hq]; cbn in H |- *.
    - destruct (cell tab' (new_state i) (new_symbol j)) as [t'|] eqn:E'; [|reflexivity].
      destruct (cell_bounds _ _ _ _ _ _ (proj1 Std') E') as (Li & Lj). specialize (H _ eq_refl _ eq_refl Li Lj). rewrite E' in H; injection H as ->. reflexivity.
    - rewrite H. reflexivity.
    - rewrite H. reflexivity.
  Qed.

  Lemma read_needs : morphett_read text <> None -> covered (table_of tab).
  Proof.
    rewrite (read_text_of _ written_good). fold names1 names2.
    destruct (otraverse (map (quint_of_names names1 names2) (written states sy tab))) as [qs|] eqn:Eqs; [|congruence]. intros _ i j.
    destruct (otraverse_map_iff _ _ _ Eqs) as (I1 & _). rewrite table_cell. destruct (cell tab i j) as [t|] eqn:E; [|exact I].
    destruct (cell_bounds _ _ _ _ _ _ (proj1 Std) E) as (Hi & Hj). pose proof (proj2 Std _ _ _ E) as S.
    destruct S as [|w d Hw|w d q Hw Hq]; cbn; [exact I| |].
    - eassert (Hin : In _ (written states sy tab)) by (apply written_In; exists i, j; eexists; split; [exact E|reflexivity]).
      destruct (I1 _ Hin) as (y & Ey & _). unfold quint_of_names in Ey. cbn in Ey.
      destruct (index_of (nth i states []) names1); [|discriminate]. destruct (index_of (nth j sy []) names2); [|discriminate].
      destruct (index_of (nth w sy []) names2) eqn:Ew; [|discriminate]. apply index_of_nth, nth_error_In in Ew. now apply names2_In.
    - eassert (Hin : In _ (written states sy tab)) by (apply written_In; exists i, j; eexists; split; [exact E|reflexivity]).
      destruct (I1 _ Hin) as (y & Ey & _). unfold quint_of_names in Ey. cbn in Ey.
      destruct (index_of (nth i states []) names1); [|discriminate]. destruct (index_of (nth j sy []) names2); [|discriminate].
      destruct (index_of (nth w sy []) names2) eqn:Ew; [|discriminate]. destruct (index_of (nth q states []) names1) eqn:Eq; [|discriminate].
      apply index_of_nth, nth_error_In in Ew, Eq. split; [now apply names2_In|now apply names1_In].
  Qed.

  Lemma new_start : has_row (table_of tab) 0 -> new_state 0 = 0.
  Proof.
    intros (j & D). apply (defined_cell _ _ _ _ _ Std) in D. destruct D as (t & E & Hd).
    destruct (cell_bounds _ _ _ _ _ _ (proj1 Std) E) as (Hn & Hj).
    assert (H0 : exists r, names1 = nth 0 states [] :: r).
    { unfold names1, names_of. cbn [fst].
      assert (exists q l, written states sy tab = q :: l /\ nq_state q = nth 0 states []) as (q & l & -> & Eq).
      { unfold written. destruct n as [|n0] eqn:En; [lia|]. cbn [seq list_prod]. rewrite flat_map_app.
        assert (exists q l, flat_map (grid_nq states sy tab) (map (fun y => (0, y)) (seq 0 m)) = q :: l /\ nq_state q = nth 0 states []) as (q & l & -> & Eq).
        { assert (Hin : In j (seq 0 m)) by (apply in_seq; lia). revert Hin. generalize (seq 0 m). intros l Hin.
          induction l as [|j' l IH]; [contradiction|]. cbn [map flat_map]. unfold grid_nq at 1. cbn [fst snd].
          destruct (cell tab 0 j') as [t'|] eqn:E'.
          - destruct (cell_nq states sy 0 j' t') as [q|] eqn:Eq.
            + exists q. eexists. split; [reflexivity|]. unfold cell_nq in Eq. destruct (t_cond t'); try discriminate; injection Eq as <-; reflexivity.
            + cbn [app]. apply IH. destruct Hin as [-> |Hin]; auto. rewrite E in E'. injection E' as <-. exfalso. unfold cell_nq in Eq. destruct (t_cond t); congruence.
          - cbn [app]. apply IH. destruct Hin as [-> |Hin]; auto. congruence. }
        cbn [app]. eauto. }
      cbn [map fold_left]. rewrite Eq. change (add_name [] (nth 0 states [])) with [nth 0 states []].
      destruct (fold_names_prefix (map nq_state l) [nth 0 states []]) as (r & ->). cbn. eauto. }
    destruct H0 as (r & Er). unfold new_state. rewrite Er. cbn. now rewrite str_eqb_refl.
  Qed.
End Back.

(** ** When the machine read back has the same numbers *)
Lemma list_prod_snoc {A B} (l : list A) k (l' : list B) : list_prod (l ++ [k]) l' = list_prod l l' ++ map (fun y => (k, y)) l'.
Proof. induction l as [|x l IH]; cbn [app list_prod]; [now rewrite app_nil_r|]. now rewrite IH, app_assoc. Qed.
Lemma firstn_snoc_nth {A} (d : A) l : forall k, k < List.length l -> firstn (S k) l = firstn k l ++ [nth k l d].
Proof.
  induction l as [|x l IH]; intros k Hk; [cbn in Hk; lia|]. destruct k as [|k]; [reflexivity|]. cbn in Hk.
  change (firstn (S (S k)) (x :: l)) with (x :: firstn (S k) l). rewrite IH by lia. reflexivity.
Qed.
Lemma fold_names_fresh xs : forall l, NoDup (l ++ xs) -> fold_left add_name xs l = l ++ xs.
Proof.
  induction xs as [|x xs IH]; intros l N; cbn; [now rewrite app_nil_r|].
  assert (Hx : mem_str x l = false).
  { destruct (mem_str x l) eqn:E; auto. apply mem_str_In in E. apply NoDup_remove_2 in N. exfalso. apply N, in_app_iff. auto. }
  unfold add_name at 2. rewrite Hx. rewrite IH; rewrite <- app_assoc; auto.
Qed.
Lemma fold_names_same x xs l : xs <> [] -> (forall y, In y xs -> y = x) -> ~ In x l -> fold_left add_name xs l = l ++ [x].
Proof.
  intros Hne H Hx. destruct xs as [|y xs]; [congruence|]. cbn [fold_left]. rewrite (H y) by now left. unfold add_name at 2.
  destruct (mem_str x l) eqn:E; [apply mem_str_In in E; contradiction|].
  apply fold_names_known. intros z Hz. rewrite (H z) by now right. apply in_app_iff. right. now left.
Qed.

#[local] Arguments new_state : simpl never.
#[local] Arguments new_symbol : simpl never.
Section Same.
  Variables (tab : ttable) (states sy : list str).
  Notation n := (List.length states).
  Notation m := (List.length sy).
  Hypothesis Std : std_table n m tab.
  Hypothesis Sblank : nth_error sy 0 = Some blank_name.
  Hypothesis N1 : NoDup states.
  Hypothesis N2 : NoDup sy.
  Hypothesis Rows : forall i, i < n -> has_row (table_of tab) i.
  Hypothesis Row0 : forall j, j < m -> defined_at (table_of tab) 0 j.
  Hypothesis Npos : 0 < n.

  Lemma defined_nq i j : defined_at (table_of tab) i j -> exists q, grid_nq states sy tab (i, j) = [q] /\ nq_state q = nth i states [] /\ nq_symbol q = nth j sy [].
  Proof.
    intros H. apply (defined_cell _ _ _ _ _ Std) in H. destruct H as (t & E & Hd). unfold grid_nq. cbn [fst snd]. rewrite E. unfold cell_nq.
    destruct (t_cond t); try congruence; eexists; (split; [reflexivity|]); split; reflexivity.
  Qed.
  Lemma grid_names i j q : In q (grid_nq states sy tab (i, j)) -> nq_state q = nth i states [] /\ nq_symbol q = nth j sy [].
  Proof.
    unfold grid_nq. cbn [fst snd]. destruct (cell tab i j) as [t|]; [|intros []]. unfold cell_nq.
    destruct (t_cond t); cbn; intros H; try contradiction; destruct H as [<-|[]]; auto.
  Qed.

  Lemma same_names1 : names1 tab states sy = states.
  Proof.
    unfold names1, names_of, written. cbn [fst].
    assert (H : forall k, k <= n -> fold_left add_name (map nq_state (flat_map (grid_nq states sy tab) (list_prod (seq 0 k) (seq 0 m)))) [] = firstn k states).
    { induction k as [|k IH]; intros Hk; [reflexivity|]. rewrite seq_S, list_prod_snoc, flat_map_app, map_app, fold_left_app, IH by lia. cbn [Nat.add].
      rewrite (fold_names_same (nth k states [])).
      - symmetry. apply firstn_snoc_nth. lia.
      - destruct (Rows k ltac:(lia)) as (j & D). destruct (defined_nq k j D) as (q & Eq & _).
        assert (Hin : In q (flat_map (grid_nq states sy tab) (map (fun y => (k, y)) (seq 0 m)))).
        { apply in_flat_map. exists (k, j). split; [|rewrite Eq; now left]. apply in_map_iff. exists j. split; auto. apply in_seq.
          apply (defined_cell _ _ _ _ _ Std) in D. destruct D as (t & E & _). destruct (cell_bounds _ _ _ _ _ _ (proj1 Std) E). lia. }
        destruct (flat_map (grid_nq states sy tab) (map (fun y => (k, y)) (seq 0 m))); [contradiction|discriminate].
      - intros y Hy. apply in_map_iff in Hy. destruct Hy as (q & <- & Hq). apply in_flat_map in Hq. destruct Hq as (a & Ha & Hq).
        apply in_map_iff in Ha. destruct Ha as (j & <- & _). now destruct (grid_names _ _ _ Hq).
      - intros Hin. apply In_nth with (d := []) in Hin. destruct Hin as (i & Hi & Ei). rewrite firstn_length in Hi.
        assert (Ei' : nth i states [] = nth k states []).
        { rewrite <- Ei. rewrite <- (firstn_skipn k states) at 1. apply app_nth1. rewrite firstn_length. lia. }
        apply (proj1 (NoDup_nth states []) N1) in Ei'; lia. }
    rewrite (H n) by lia. apply firstn_all.
  Qed.

  Lemma same_names2 : names2 tab states sy = sy.
  Proof.
    unfold names2, names_of, written. cbn [snd].
    assert (Es : seq 0 n = 0 :: seq 1 (n - 1)) by (clear - Npos; destruct (List.length states); [lia|]; cbn; now rewrite Nat.sub_0_r).
    rewrite Es. cbn [list_prod]. rewrite flat_map_app, map_app, fold_left_app.
    assert (E : map nq_symbol (flat_map (grid_nq states sy tab) (map (fun y => (0, y)) (seq 0 m))) = sy).
    { transitivity (map (fun j => nth j sy []) (seq 0 m)).
      - assert (Hl : forall j, In j (seq 0 m) -> j < m) by (intros j Hj; apply in_seq in Hj; lia). revert Hl. generalize (seq 0 m). intros l Hl.
        induction l as [|j l IH]; [reflexivity|]. cbn [map flat_map]. destruct (defined_nq 0 j) as (q & -> & _ & Eq); [apply Row0, Hl; now left|].
        cbn [app map]. rewrite Eq, IH; auto. intros j' Hj'. apply Hl. now right.
      - apply list_ext; [rewrite map_length, seq_length; auto|]. intros j Hj. rewrite map_length, seq_length in Hj.
        rewrite (nth_error_nth' sy []) by lia. rewrite nth_error_map, (nth_error_nth' (seq 0 m) 0) by (rewrite seq_length; lia).
        rewrite seq_nth by lia. reflexivity. }
    rewrite E. assert (exists r, sy = blank_name :: r) as (r & Er) by (destruct sy as [|x r]; [discriminate|]; injection Sblank as ->; eauto).
    assert (E1 : fold_left add_name sy [blank_name] = sy).
    { rewrite Er at 1. cbn [fold_left]. unfold add_name at 2. rewrite (proj2 (mem_str_In blank_name [blank_name])) by now left.
      rewrite fold_names_fresh; rewrite Er in *; auto. }
    rewrite E1. apply fold_names_known. intros x Hx. apply in_map_iff in Hx. destruct Hx as (q & <- & Hq).
    apply in_flat_map in Hq. destruct Hq as ((i, j) & Ha & Hq). apply in_prod_iff in Ha. rewrite !in_seq in Ha.
    destruct (grid_names _ _ _ Hq) as (_ & ->). apply nth_In. lia.
  Qed.

  Lemma same_state i : i < n -> new_state tab states sy i = i.
  Proof.
    intros Hi. unfold new_state. rewrite same_names1. rewrite (nth_index (nth i states []) states i); auto. now apply nth_error_nth'.
  Qed.
  Lemma same_symbol j : j < m -> new_symbol tab states sy j = j.
  Proof.
    intros Hi. unfold new_symbol. rewrite same_names2. rewrite (nth_index (nth j sy []) sy j); auto. now apply nth_error_nth'.
  Qed.
  Lemma same_covered : covered (table_of tab).
  Proof.
    intros i j. rewrite table_cell. destruct (cell tab i j) as [t|] eqn:E; [|exact I].
    pose proof (proj2 Std _ _ _ E) as S. destruct S as [|w d Hw|w d q Hw Hq]; cbn; [exact I| |].
    - right. exists 0. now apply Row0.
    - split; [right; exists 0; now apply Row0|now apply Rows].
  Qed.
  Lemma same_table tab' : std_table n m tab' ->
    (forall i j, i < n -> j < m ->
      match cell tab i j with
      | Some t => match t_cond t with
                  | UNDEFINED => forall i', i' = new_state tab states sy i -> forall j', j' = new_symbol tab states sy j -> i' < n -> j' < m ->
                                   cell tab' i' j' = Some (undefined_trans j' i')
                  | _ => cell tab' (new_state tab states sy i) (new_symbol tab states sy j) = Some (row_trans (new_quint tab states sy i j t))
                  end
      | None => True
      end) -> tab' = tab.
  Proof.
    intros Std' H. apply (rect_ext n m); [apply Std'|apply Std|]. intros i j Hi Hj. specialize (H i j Hi Hj).
    destruct (std_rect_cell n m tab i j Std Hi Hj) as (t & E & S). rewrite E in H |- *.
    destruct S as [|w d Hw|w d q Hw Hq]; cbn [t_cond undefined_trans] in H.
    - rewrite (H i (eq_sym (same_state i Hi)) j (eq_sym (same_symbol j Hj)) Hi Hj). reflexivity.
    - rewrite (same_state i Hi), (same_symbol j Hj) in H. rewrite H. unfold row_trans, new_quint. cbn [q_symbol_out q_state_out q_state_in q_symbol_in q_dir_out t_sym t_state t_dir].
      rewrite (same_state i Hi), (same_symbol j Hj), (same_symbol w Hw). reflexivity.
    - rewrite (same_state i Hi), (same_symbol j Hj) in H. rewrite H. unfold row_trans, new_quint. cbn [q_symbol_out q_state_out q_state_in q_symbol_in q_dir_out t_sym t_state t_dir].
      rewrite (same_state i Hi), (same_symbol w Hw), (same_state q Hq). reflexivity.
  Qed.
End Same.

(** ** Numbers as names *)
Lemma to_uint_nonnil k : Nat.to_uint k <> Decimal.Nil.
Proof.
  intros E. pose proof (DecimalNat.Unsigned.of_to k) as H. rewrite E in H. cbn in H. subst k. discriminate E.
Qed.
Lemma number_name_inj k k' : number_name k = number_name k' -> k = k'.
Proof.
  unfold number_name. intros H. apply (f_equal string_of_list_ascii) in H. rewrite !string_of_list_ascii_of_string in H.
  apply DecimalNat.Unsigned.to_uint_inj.
  pose proof (DecimalString.NilZero.usu _ (to_uint_nonnil k)) as E. rewrite H, (DecimalString.NilZero.usu _ (to_uint_nonnil k')) in E.
  congruence.
Qed.
Definition is_digit (c : ascii) : Prop := exists k, k < 10 /\ c = digit k.
Lemma number_digits k : number_name k <> [] /\ forall c, In c (number_name k) -> is_digit c.
Proof.
  unfold number_name.
  assert (E : DecimalString.NilZero.string_of_uint (Nat.to_uint k) = DecimalString.NilEmpty.string_of_uint (Nat.to_uint k)).
  { pose proof (to_uint_nonnil k). destruct (Nat.to_uint k); [congruence|reflexivity..]. }
  rewrite E. pose proof (to_uint_nonnil k) as N. split; [destruct (Nat.to_uint k); [congruence|discriminate..]|].
  clear. intros c. induction (Nat.to_uint k) as [|u IH|u IH|u IH|u IH|u IH|u IH|u IH|u IH|u IH|u IH]; cbn; intros H; [contradiction|..];
    (destruct H as [<-|H]; [|auto]); unfold is_digit.
  - exists 0. split; [lia|reflexivity].
  - exists 1. split; [lia|reflexivity].
  - exists 2. split; [lia|reflexivity].
  - exists 3. split; [lia|reflexivity].
  - exists 4. split; [lia|reflexivity].
  - exists 5. split; [lia|reflexivity].
  - exists 6. split; [lia|reflexivity].
  - exists 7. split; [lia|reflexivity].
  - exists 8. split; [lia|reflexivity].
  - exists 9. split; [lia|reflexivity].
Qed.
Lemma digit_facts c : is_digit c -> name_char c /\ lower c = c /\ c <> "h"%char /\ c <> "_"%char.
Proof.
  intros (k & Hk & ->). do 10 (destruct k as [|k]; [repeat split; (reflexivity || discriminate)|]). lia.
Qed.
Lemma number_good k : good_name (number_name k) /\ is_halt_name (number_name k) = false /\ number_name k <> blank_name.
Proof.
  destruct (number_digits k) as (N & D). split; [split; [exact N|intros c H; apply digit_facts, D, H]|].
  destruct (number_name k) as [|c s] eqn:E; [congruence|]. destruct (digit_facts c) as (_ & H1 & H2 & H3); [apply D; now left|]. split.
  - unfold is_halt_name. cbn [map]. rewrite H1. unfold halt_name. cbn [starts_with].
    destruct (Ascii.eqb_spec "h" c) as [X|X]; [congruence|reflexivity].
  - intros X. injection X as -> _. congruence.
Qed.
Lemma number_names_NoDup k : NoDup (number_names k).
Proof.
  unfold number_names. apply FinFun.Injective_map_NoDup; [|apply seq_NoDup].
  intros x y H. now apply number_name_inj.
Qed.
Lemma number_names_length k : List.length (number_names k) = k.
Proof. unfold number_names. now rewrite map_length, seq_length. Qed.
