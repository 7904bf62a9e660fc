(** * A limited rule is true for every tape whose near blocks look alike *)
Require Import ZArith List Lia Bool Arith QArith Qround Permutation.
From Verif Require Import Spec_TM M_Turing_Machine P_Stream P_SimLimited P_Macro P_Pump
     M_Expr P_Expr M_Tape M_Simulator P_Tape P_Simulator M_Prover P_Lin P_GenSim P_Form P_GenLoop P_Nums P_Rule
     P_MakeRule P_Apply M_ProverLim P_ProverLim P_LimMark P_LimLoop P_LimApply.
Import ListNotations.
Open Scope Z_scope.

(** ** substitution depends only on the variables that occur *)
Lemma vp_subst_ext R R' x p : subs_get x R = subs_get x R' -> vp_subst R (x, p) = vp_subst R' (x, p).
Proof. intros E. unfold vp_subst. now rewrite E. Qed.
Lemma term_subst_ext R R' t : (forall x, In x (map fst (t_vars t)) -> subs_get x R = subs_get x R') ->
  term_subst R t = term_subst R' t.
Proof.
  intros H. unfold term_subst.
  assert (E : map (vp_subst R) (t_vars t) = map (vp_subst R') (t_vars t)).
  { apply map_ext_in. intros [x p] Hx. apply vp_subst_ext, H. apply in_map_iff. exists (x, p). auto. }
  now rewrite E.
Qed.
Lemma terms_subst_ext R R' ts : (forall x, In x (flat_map (fun t => map fst (t_vars t)) ts) -> subs_get x R = subs_get x R') ->
  forall acc, terms_subst R ts acc = terms_subst R' ts acc.
Proof.
  induction ts as [|t ts IH]; intros H acc; [reflexivity|]. cbn [terms_subst].
  rewrite (term_subst_ext R R' t) by (intros x Hx; apply H; simpl; apply in_or_app; auto).
  destruct (term_subst R' t); auto. apply IH. intros x Hx. apply H. simpl. apply in_or_app. auto.
Qed.
Lemma v_subst_ext R R' v : (forall x, In x (v_variables v) -> subs_get x R = subs_get x R') ->
  v_subst v R = v_subst v R'.
Proof.
  destruct v as [q|e]; [reflexivity|]. cbn [v_subst v_variables]. destruct (e_is_const e); [reflexivity|].
  intros H. unfold e_subst. now rewrite (terms_subst_ext R R').
Qed.
Lemma seen_subst_ext R R' V seen : dvars seen V -> (forall x, In x V -> subs_get x R = subs_get x R') ->
  seen_map_opt (fun v => v_subst v R) seen = seen_map_opt (fun v => v_subst v R') seen.
Proof.
  intros Hd H. unfold seen_map_opt. induction Hd as [|kv d Hkv _ IH]; [reflexivity|].
  cbn [map_opt]. rewrite IH. rewrite (v_subst_ext R R'); auto.
Qed.

(** ** near and far *)
Lemma near_far {A} d (h : list A) : near d h ++ far d h = h.
Proof. destruct d; simpl; [apply app_nil_r|]. destruct h; simpl; auto. f_equal. apply firstn_skipn. Qed.
Lemma near_map {A B} (f : A -> B) d h : near d (map f h) = map f (near d h).
Proof. destruct d; [reflexivity|]. unfold near. apply firstn_map. Qed.
Lemma far_map {A B} (f : A -> B) d h : far d (map f h) = map f (far d h).
Proof. destruct d; [reflexivity|]. unfold far. apply skipn_map. Qed.
Lemma near_len {A B} d (h : list A) (h' : list B) : length h = length h' -> length (near d h) = length (near d h').
Proof. intros H. destruct d; [exact H|]. unfold near. rewrite !firstn_length. lia. Qed.
Lemma Forall2_near {A B} (R : A -> B -> Prop) d l l' : Forall2 R l l' -> Forall2 R (near d l) (near d l').
Proof.
  intros H. destruct d as [|d]; [exact H|]. unfold near. generalize (S d). clear d. 
  induction H as [|a b l l' Hab H IH]; intros [|d]; simpl; constructor; auto.
Qed.
Lemma near_app {A} d (a b : list A) : b = [] -> near d (a ++ b) = near d a.
Proof. intros ->. now rewrite app_nil_r. Qed.
Lemma near_full {A} d (h b : list A) : far d h = [] -> near d h = h.
Proof. intros E. rewrite <- (near_far d h) at 2. now rewrite E, app_nil_r. Qed.
Lemma far_len {A} d (h : list A) : far d h <> [] -> length (near d h) = d /\ (1 <= d)%nat.
Proof.
  destruct d as [|d]; [intros H; now contradiction H|]. unfold far, near. intros H. split; [|lia].
  rewrite firstn_length. destruct (le_lt_dec (length h) (S d)); [|lia].
  exfalso. apply H. now apply skipn_all2.
Qed.
(** a list split where another list is split *)
Lemma near_split {A B} d (h : list B) (a b : list A) : length a = length (near d h) -> length b = length (far d h) ->
  near d (a ++ b) = a /\ far d (a ++ b) = b.
Proof.
  intros Ha Hb. destruct d as [|d]; unfold near, far in *.
  - destruct b; [|discriminate]. now rewrite app_nil_r.
  - destruct (le_lt_dec (length h) (S d)) as [Hl|Hl].
    + rewrite firstn_all2 in Ha by lia. rewrite skipn_all2 in Hb by lia. destruct b; [|discriminate].
      rewrite app_nil_r. rewrite firstn_all2, skipn_all2 by lia. auto.
    + rewrite firstn_length in Ha. rewrite firstn_exact, skipn_exact by lia. auto.
Qed.

(** ** one half of two tapes with the same key *)
Definition tag {Sym} (b : blk Z Sym) : option (Sym * bool) :=
  match k_num b with Some n => Some (k_sym b, z_is1 n) | None => None end.
Lemma strip_tag {Sym} (i0 : Sym) (h : list (blk Z Sym)) : bform i0 h ->
  map Some (strip_half z_is1 h) ++ [None] = map tag h.
Proof.
  induction 1 as [|s n h H IH]; [reflexivity|]. rewrite (strip_cons i0) by exact H.
  cbn [map app]. rewrite IH. reflexivity.
Qed.
Lemma match_first {Sym} (i0 : Sym) : forall d (h h' : list (blk Z Sym)), bform i0 h -> bform i0 h' ->
  map tag (firstn d h) = map tag (firstn d h') ->
  (skipn d h = [] <-> skipn d h' = []) /\ map k_sym (firstn d h) = map k_sym (firstn d h') /\
  Forall2 (frel z_is1 z_is1) (map k_num (firstn d h)) (map k_num (firstn d h')).
Proof.
  induction d as [|d IH]; intros h h' H H'.
  - intros _. simpl. split; [destruct H; destruct H'; split; discriminate|]. split; [reflexivity|constructor].
  - destruct H as [|s n h H], H' as [|s' n' h' H']; cbn [firstn skipn map tag k_num k_sym].
    + intros _. split; [tauto|]. rewrite !firstn_nil. split; [reflexivity|]. repeat constructor.
    + discriminate.
    + discriminate.
    + intros E. injection E as -> En E. destruct (IH h h' H H' E) as (A & B & C).
      split; [exact A|]. split; [now rewrite B|]. constructor; [exact En|exact C].
Qed.
Lemma match_half {Sym} (i0 : Sym) d (h h' : list (blk Z Sym)) : bform i0 h -> bform i0 h' ->
  near d (map Some (strip_half z_is1 h) ++ [None]) = near d (map Some (strip_half z_is1 h') ++ [None]) ->
  (far d h = [] <-> far d h' = []) /\ map k_sym (near d h) = map k_sym (near d h') /\
  Forall2 (frel z_is1 z_is1) (map k_num (near d h)) (map k_num (near d h')).
Proof.
  intros H H'. rewrite !(strip_tag i0) by assumption. rewrite !near_map.
  destruct d as [|d]; [|apply (match_first i0 (S d)); assumption].
  unfold near, far. intros E. split; [tauto|].
  pose proof (match_first i0 (length h + length h') h h' H H') as G.
  rewrite !firstn_all2 in G by lia. destruct (G E) as (_ & A & B). auto.
Qed.

(** ** identifiers *)
Lemma id_half_app {N Sym} (a b : list (blk N Sym)) : forall i,
  id_half i (a ++ b) = id_half i a ++ id_half (i + length a) b.
Proof.
  induction a as [|x a IH]; intros i; simpl; [now rewrite Nat.add_0_r|]. f_equal. rewrite IH. do 2 f_equal. lia.
Qed.
Lemma un_id_half {N Sym} (h : list (blk N Sym)) : forall i, map un_blk (id_half i h) = h.
Proof. induction h as [|[s n] h IH]; intros i; simpl; auto. f_equal. apply IH. Qed.
Lemma un_id_tape {N Sym} (t : ctape N Sym) : un_tape (id_tape t) = t.
Proof. destruct t as [d l r]. unfold un_tape, id_tape. cbn [ct_dir ct_l ct_r]. now rewrite !un_id_half. Qed.
Lemma un_sim0 {Sym St} (t : ctape Z Sym) (q : St) inits : un_sim (lim_sim0 t q inits) = gen_sim0 t q inits.
Proof. unfold un_sim, lim_sim0, gen_sim0. cbn [s_tape s_state s_dir s_steps s_loops s_op s_details s_seen s_inf s_rules]. now rewrite un_id_tape. Qed.
Lemma un_mark {Sym} b (h : list (blk val Sym)) : map un_blk (mark b h) = h.
Proof. unfold mark. rewrite map_map. rewrite <- (map_id h) at 2. apply map_ext. intros [s n]. reflexivity. Qed.

(** ** blocks with constant counts *)
Definition cst {Sym} (h : list (blk Z Sym)) : list (blk val Sym) :=
  map (fun b => Blk (k_sym b) (option_map (fun z => VS (inject_Z z)) (k_num b))) h.
Lemma cst_num {Sym} (h : list (blk Z Sym)) : rev (map k_num (cst h)) = padi (knums h).
Proof. unfold cst, padi, knums. now rewrite map_map, map_rev, map_map. Qed.
Lemma cst_sym {Sym} (h : list (blk Z Sym)) : map k_sym (cst h) = map k_sym h.
Proof. unfold cst. now rewrite map_map. Qed.
Lemma cst_form {Sym} (i0 : Sym) m h : hwf i0 h -> hform (i0, true) (av m) (mark true (cst h)).
Proof.
  induction 1 as [|s z h Hz H IH]; simpl; [constructor|]. constructor; [|exact IH].
  simpl. exists z. split; [reflexivity|lia].
Qed.
Lemma hwf_far {Sym} (i0 : Sym) d h : hwf i0 h -> far d h <> [] -> hwf i0 (far d h).
Proof.
  destruct d as [|d]; [intros _ H; now contradiction H|]. unfold far. generalize (S d). clear d. intros d H. revert d.
  induction H as [|s z h Hz H IH]; intros [|d]; simpl; intros Hn; try (constructor; auto; fail).
  - destruct d; now contradiction Hn.
  - now apply IH.
Qed.
Lemma hform_mark {Sym} (i0 : Sym) P h : hform i0 P h -> hform (i0, true) P (mark true h).
Proof. induction 1; simpl; constructor; auto. Qed.
Lemma hform_mark_app {Sym} (i0 : Sym) P b h f : hform i0 P (h ++ f) -> f <> [] ->
  forall g, hform (i0, true) P g -> hform (i0, true) P (mark b h ++ g).
Proof.
  intros H Hf g Hg. revert H. induction h as [|x h IH]; simpl; intros H; [exact Hg|].
  inversion H as [E|? v ? Hv Hh]; subst.
  - destruct h; [|discriminate]. simpl in *. congruence.
  - constructor; auto.
Qed.
Lemma hwf_un {Sym A} (i0 : Sym) (x : A) h : hwf (i0, x) h -> hwf i0 (map un_blk h).
Proof. induction 1 as [|[s y] z h Hz H IH]; simpl; [constructor|]. constructor; auto. Qed.
Lemma twf_un {Sym A} (i0 : Sym) (x : A) t : twf (i0, x) t -> twf i0 (un_tape t).
Proof. intros [B C]. split; eapply hwf_un; eauto. Qed.
Lemma et_un {Sym A} sg (t : ctape val (Sym * A)) : un_tape (et sg t) = et sg (un_tape t).
Proof. unfold un_tape, et. cbn [ct_dir ct_l ct_r]. now rewrite !map_map. Qed.
Lemma un_nums2 {N Sym A} (t : ctape N (Sym * A)) : nums (un_tape t) = nums t.
Proof. unfold nums, un_tape. cbn [ct_l ct_r]. rewrite !map_map. reflexivity. Qed.
Lemma shape_un {N Sym} (t t2 : ctape N Sym) : shape t = shape t2 -> ct_dir t = ct_dir t2 /\
  map k_sym (ct_l t) = map k_sym (ct_l t2) /\ map k_sym (ct_r t) = map k_sym (ct_r t2).
Proof. unfold shape. intros E. injection E. auto. Qed.

(** ** cutting and padding lists of counts *)
Lemma Forall2_firstn {A B} (R : A -> B -> Prop) l l' : Forall2 R l l' -> forall n, Forall2 R (firstn n l) (firstn n l').
Proof. induction 1; intros [|n]; simpl; constructor; auto. Qed.
Lemma Forall2_skipn {A B} (R : A -> B -> Prop) l l' : Forall2 R l l' -> forall n, Forall2 R (skipn n l) (skipn n l').
Proof. induction 1; intros [|n]; simpl; auto. Qed.
Lemma Forall2_cut {A B} (R : A -> B -> Prop) nl dl dr l l' : Forall2 R l l' ->
  Forall2 R (cut nl dl dr l) (cut nl dl dr l').
Proof.
  intros H. unfold cut. apply Forall2_app; apply Forall2_rev, Forall2_near, Forall2_rev;
    [now apply Forall2_firstn|now apply Forall2_skipn].
Qed.
Lemma cut_map {A B} (f : A -> B) nl dl dr l : cut nl dl dr (map f l) = map f (cut nl dl dr l).
Proof. unfold cut. now rewrite firstn_map, skipn_map, map_app, <- !map_rev, !near_map, !map_rev. Qed.
Lemma cut_perm {A} nl dl dr (l : list A) : exists rest, Permutation l (cut nl dl dr l ++ rest).
Proof.
  exists (far dl (rev (firstn nl l)) ++ far dr (rev (skipn nl l))). unfold cut.
  pose proof (near_far dl (rev (firstn nl l))) as E1. pose proof (near_far dr (rev (skipn nl l))) as E2.
  rewrite <- (firstn_skipn nl l) at 1.
  apply Permutation_trans with ((near dl (rev (firstn nl l)) ++ far dl (rev (firstn nl l))) ++
                                (near dr (rev (skipn nl l)) ++ far dr (rev (skipn nl l)))).
  { rewrite E1, E2. apply Permutation_app; apply Permutation_rev. }
  rewrite <- !app_assoc. apply Permutation_app; [apply Permutation_rev|].
  rewrite !app_assoc. apply Permutation_app_tail.
  eapply Permutation_trans; [apply Permutation_app_comm|]. apply Permutation_app_tail, Permutation_rev.
Qed.
Lemma cut_nodup nl dl dr l : NoDup (flat_map nvars l) -> NoDup (flat_map nvars (cut nl dl dr l)).
Proof.
  intros H. destruct (cut_perm nl dl dr l) as [rest P].
  apply NoDup_app_remove_r with (flat_map nvars rest). rewrite <- flat_map_app. eapply Permutation_NoDup; [|exact H].
  now apply Permutation_flat_map.
Qed.
Lemma cut_incl {A} nl dl dr (l : list A) : incl (cut nl dl dr l) l.
Proof.
  destruct (cut_perm nl dl dr l) as [rest P]. intros x Hx. eapply Permutation_in; [apply Permutation_sym; exact P|].
  apply in_or_app. auto.
Qed.
Lemma Forall2_pad {A B} (R : A -> B -> Prop) a a' b b' n l l' : Forall2 R a a' -> Forall2 R b b' -> Forall2 R l l' ->
  Forall2 R (pad a b n l) (pad a' b' n l').
Proof.
  intros H1 H2 H3. unfold pad. repeat apply Forall2_app; auto; [now apply Forall2_firstn|now apply Forall2_skipn].
Qed.
Lemma pad_map {A B} (f : A -> B) a b n l : map f (pad a b n l) = pad (map f a) (map f b) n (map f l).
Proof. unfold pad. now rewrite !map_app, firstn_map, skipn_map. Qed.
Lemma pad_flat {A B} (f : A -> list B) a b n l : flat_map f a = [] -> flat_map f b = [] ->
  flat_map f (pad a b n l) = flat_map f l.
Proof.
  intros E1 E2. unfold pad. rewrite !flat_map_app, E1, E2. simpl. rewrite <- flat_map_app. now rewrite firstn_skipn.
Qed.
Lemma padi_vars cs : flat_map nvars (padi cs) = [].
Proof. induction cs as [|[z|] cs IH]; simpl; auto. Qed.
Lemma map_opt_F2 {A B} (f : A -> option B) l l' : Forall2 (fun a b => f a = Some b) l l' -> map_opt f l = Some l'.
Proof. induction 1 as [|a b l l' H _ IH]; simpl; [reflexivity|]. now rewrite H, IH. Qed.
Lemma F2_map_opt {A B} (f : A -> option B) l : forall l', map_opt f l = Some l' -> Forall2 (fun a b => f a = Some b) l l'.
Proof.
  induction l as [|a l IH]; simpl; intros l' E; [injection E as <-; constructor|].
  destruct (f a) as [b|] eqn:Ea; [|discriminate]. destruct (map_opt f l) as [bs|]; [|discriminate].
  injection E as <-. constructor; auto.
Qed.
Lemma pad_dblock m cs : Forall pos cs -> Forall2 (dblock0 m) (padi cs) (padd cs).
Proof. induction 1 as [|[z|] cs H _ IH]; simpl; constructor; auto; simpl; eauto. Qed.
Lemma Forall2_and_l {A B} (R S : A -> B -> Prop) l l' : Forall2 R l l' -> Forall2 S l l' -> Forall2 (fun a b => R a b /\ S a b) l l'.
Proof. apply Forall2_conj. Qed.

Lemma make_diff_pad {Sym St} nl dl dr n cl cr inits diffs m (s : sim val Sym St) seen ti td num seen' :
  let V2 := flat_map nvars (cut nl dl dr inits) in
  make_diff inits diffs m s seen = Some (RDiff ti td num seen') ->
  Forall2 (dblock0 m) inits diffs -> NoDup (flat_map nvars inits) ->
  incl (v_variables (s_steps s)) V2 -> dvars seen V2 -> Forall pos cl -> Forall pos cr ->
  td = diffs /\
  make_diff (pad (padi cl) (padi cr) n (cut nl dl dr inits)) (pad (padd cl) (padd cr) n (cut nl dl dr diffs)) m s seen =
  Some (RDiff (pad (padi cl) (padi cr) n (cut nl dl dr ti)) (pad (padd cl) (padd cr) n (cut nl dl dr diffs)) num seen').
Proof.
  intros V2 E D ND Hs Hd Pl Pr. unfold make_diff in E.
  destruct (map_opt (tighten m) inits) as [l|] eqn:El; [|discriminate]. apply F2_map_opt in El.
  assert (FT : Forall2 (trel m) inits l).
  { clear -El D. revert diffs D. induction El as [|i o is os Ho _ IH]; intros ds D; inversion D; subst; constructor; eauto.
    destruct (tighten_ok m i y) as (o' & Eo & T); auto. congruence. }
  cbn zeta in E. set (R := concat (map snd l)) in E. rewrite (diffs_subst m inits) in E by exact D.
  destruct (v_subst (s_steps s) R) as [st|] eqn:Est; [|discriminate].
  destruct (seen_map_opt (fun v => v_subst v R) seen) as [sn|] eqn:Esn; [|discriminate].
  injection E as <- <- <- <-. split; [reflexivity|].
  assert (FTc : Forall2 (trel m) (cut nl dl dr inits) (cut nl dl dr l)) by (now apply Forall2_cut).
  destruct (trel_vars m _ _ FTc) as (_ & K2 & _). destruct (trel_vars m _ _ FT) as (_ & K3 & _).
  set (R' := concat (map snd (cut nl dl dr l))) in *.
  assert (Agree : forall x, In x V2 -> subs_get x R' = subs_get x R).
  { intros x Hx. unfold V2 in Hx. rewrite <- K2 in Hx. apply in_map_iff in Hx. destruct Hx as ([y u] & Ey & Hx).
    simpl in Ey. subst y.
    assert (Hin : In (x, u) R).
    { unfold R' in Hx. apply in_concat in Hx. destruct Hx as (us & Hu & Hx). apply in_map_iff in Hu.
      destruct Hu as (o & <- & Ho). unfold R. apply in_concat. exists (snd o). split; auto.
      apply in_map. eapply cut_incl; eauto. }
    rewrite (subs_get_nodup R x u); auto; [|fold R in K3; rewrite K3; exact ND].
    apply subs_get_nodup; auto. rewrite K2. now apply cut_nodup. }
  unfold make_diff.
  rewrite (map_opt_F2 (tighten m) _ (pad (map (fun o : option val => (o, [] : subs)) (padi cl)) (map (fun o : option val => (o, [] : subs)) (padi cr)) n (cut nl dl dr l))).
  2:{ assert (G : forall cs, Forall2 (fun a b => tighten m a = Some b) (padi cs) (map (fun o : option val => (o, [] : subs)) (padi cs))).
      { induction cs as [|[z|] cs IH]; simpl; constructor; auto. }
      apply Forall2_pad; auto. now apply Forall2_cut. }
  cbn zeta.
  assert (ER : concat (map snd (pad (map (fun o : option val => (o, [] : subs)) (padi cl)) (map (fun o : option val => (o, [] : subs)) (padi cr)) n (cut nl dl dr l))) = R').
  { rewrite pad_map. unfold pad. rewrite !concat_app.
    assert (G : forall cs : list (option val), concat (map snd (map (fun o => (o, [] : subs)) cs)) = []).
    { induction cs; simpl; auto. }
    rewrite !G. cbn [app]. rewrite <- concat_app, firstn_skipn. reflexivity. }
  rewrite ER, (diffs_subst m (pad (padi cl) (padi cr) n (cut nl dl dr inits))).
  2:{ apply Forall2_pad; [now apply pad_dblock|now apply pad_dblock|now apply Forall2_cut]. }
  rewrite (v_subst_ext R' R (s_steps s)), Est by auto.
  rewrite (seen_subst_ext R' R V2 seen), Esn by auto.
  do 2 f_equal. rewrite pad_map, !map_map. cbn [fst]. rewrite !map_id. f_equal. symmetry. apply cut_map.
Qed.

Lemma combine_fs {A B} (c : list (A * B)) : combine (map fst c) (map snd c) = c.
Proof. induction c as [|[a b] c IH]; simpl; congruence. Qed.
Lemma fs_combine {A B} (a : list A) : forall b : list B, length a = length b ->
  map fst (combine a b) = a /\ map snd (combine a b) = b.
Proof.
  induction a as [|x a IH]; intros [|y b] H; try discriminate; auto. simpl. injection H as H.
  destruct (IH b H) as [-> ->]. auto.
Qed.
Lemma cut_combine {A B} nl dl dr (a : list A) (b : list B) : length a = length b ->
  cut nl dl dr (combine a b) = combine (cut nl dl dr a) (cut nl dl dr b).
Proof.
  intros H. destruct (fs_combine a b H) as [E1 E2]. rewrite <- E1 at 2. rewrite <- E2 at 3.
  now rewrite !cut_map, combine_fs.
Qed.
Lemma pad_combine {A B} n (a b l : list A) (a' b' l' : list B) : length a = length a' -> length b = length b' ->
  length l = length l' -> combine (pad a b n l) (pad a' b' n l') = pad (combine a a') (combine b b') n (combine l l').
Proof.
  intros H1 H2 H3. destruct (fs_combine a a' H1) as [E1 E1']. destruct (fs_combine b b' H2) as [E2 E2'].
  destruct (fs_combine l l' H3) as [E3 E3'].
  rewrite <- E1 at 1. rewrite <- E2 at 1. rewrite <- E3 at 1. rewrite <- E1' at 2. rewrite <- E2' at 2. rewrite <- E3' at 2.
  now rewrite <- !pad_map, combine_fs.
Qed.
Lemma cut_nums {N Sym} (t : ctape N Sym) dl dr : cut (length (ct_l t)) dl dr (nums t) =
  rev (map k_num (near dl (ct_l t))) ++ rev (map k_num (near dr (ct_r t))).
Proof.
  unfold cut, nums. rewrite firstn_exact, skipn_exact by (now rewrite rev_length, map_length).
  now rewrite !rev_involutive, !near_map.
Qed.
Lemma nums_pad {Sym} d (a b : list (blk val Sym)) gl gr :
  nums (CTape d (a ++ cst gl) (b ++ cst gr)) =
  pad (padi (knums gl)) (padi (knums gr)) (length a) (rev (map k_num a) ++ rev (map k_num b)).
Proof.
  unfold nums, pad. cbn [ct_l ct_r]. rewrite firstn_exact, skipn_exact by (now rewrite rev_length, map_length).
  now rewrite !map_app, !rev_app_distr, !cst_num.
Qed.
Lemma add_pad sg cs : addk 1 (ez sg (padi cs)) (padd cs) = ez sg (padi cs).
Proof.
  unfold addk, ez. induction cs as [|[z|] cs IH]; simpl; auto; f_equal; auto. f_equal.
  change (zev (fun _ : nat => 0) (VS (inject_Z 0))) with 0. lia.
Qed.

Section Lim.
  Context {Sym St : Type}.
  Variables (Gd : Prop) (T : table) (M : machine Sym St) (Rp : dcfg Sym St -> config -> Prop)
            (halted : St -> Prop).
  Hypothesis MS : msound Gd T M Rp halted.
  Hypothesis SW : seen_wf M Rp.
  Hypothesis PU : pumpable Rp.
  Notation i0 := (m_init_sym M).
  Notation wf := (twf i0).
  Notation den := (tden i0).

  Lemma sim0_ginv t q next nx inits m0 : wf t -> gen_nums next (nums t) = Some (nx, inits, m0) ->
    ginv M (flat_map nvars inits) m0 (gen_sim0 t q inits) /\ length inits = sh_len (shape t).
  Proof.
    intros W E. set (V := flat_map nvars inits). destruct (gen_nums_ok (nums t) (wf_pos M t W) next) as
      (nx' & vs & m' & E' & Hnx & Hk & Hr & Hd & Hi & Hm).
    rewrite E in E'. injection E' as <- <- <-.
    pose proof (Forall2_length' _ _ _ Hi) as Hl. rewrite nums_len in Hl. symmetry in Hl. split; [|exact Hl].
    assert (F0 : tform i0 (av m0) (mk (shape t) inits)).
    { apply (mk_form i0 (av m0) (fun n o => pos n /\ irel m0 n o)); auto.
      - intros v [_ H]. exact H.
      - intros z o [H1 H2]. pose proof (irel_av m0 _ _ H1 H2) as H3. simpl in H2.
        destruct (z =? 1); [subst o; eauto|]. destruct H2 as (x & k & -> & _). eauto.
      - apply Forall2_left; auto. now apply (wf_pos M). }
    assert (PV : Permutation (tvars (mk (shape t) inits)) V).
    { eapply perm_trans; [apply tvars_nums|]. rewrite nums_mk by exact Hl. apply Permutation_refl. }
    assert (ND : NoDup V) by (unfold V; rewrite <- Hk; exact Hd).
    constructor; simpl s_tape; auto.
    - eapply Permutation_NoDup; [apply Permutation_sym; exact PV|exact ND].
    - intros x Hx. eapply Permutation_in; eauto.
    - unfold V. rewrite <- Hk. exact Hm.
    - split; [constructor|]. exists 0. reflexivity.
    - intros x [].
    - exists []. split; [reflexivity|]. split; [constructor|]. split; constructor.
  Qed.

  (** the far blocks of [t], as constant blocks of a rule for the whole tape *)
  Definition padded (r : lrule) (t : ctape Z Sym) (f : list (option Z) -> list (option val)) (ns : list (option val)) :=
    pad (f (knums (far (lr_left r) (ct_l t)))) (f (knums (far (lr_right r) (ct_r t))))
        (length (near (lr_left r) (ct_l t))) ns.

  (** a stored limited rule is true for every tape with its keys *)
  Definition lim_ok (e : lkey (Sym := Sym) (St := St) * lkey (Sym := Sym) (St := St) * lrule) : Prop :=
    let '(kl, kr, r) := e in
    forall t q, wf t ->
      lkey_of q (ct_dir t) (strip_half z_is1 (ct_l t)) (lr_left r) = kl ->
      lkey_of q (ct_dir t) (strip_half z_is1 (ct_r t)) (lr_right r) = kr ->
      diff_ok T M Rp (shape t) q (padded r t padi (lr_init r)) (padded r t padd (lr_diff r)) (lr_steps r) (lr_seen r) /\
      Forall2 dalign (padded r t padi (lr_init r)) (nums t) /\
      length (lr_init r) = (length (near (lr_left r) (ct_l t)) + length (near (lr_right r) (ct_r t)))%nat /\
      length (lr_diff r) = (length (near (lr_left r) (ct_l t)) + length (near (lr_right r) (ct_r t)))%nat.

  Section Match.
    Variables (t : ctape Z Sym) (q : St) (inits : list (option val)) (dl dr : nat) (t' : ctape Z Sym).
    Hypothesis (W : wf t) (W' : wf t') (Li : length inits = sh_len (shape t)).
    Definition dist (d : dir) : nat := match d with L => dl | R => dr end.
    Hypothesis Hmatch : forall d,
      near (dist d) (map Some (strip_half z_is1 (half d t)) ++ [None]) =
      near (dist d) (map Some (strip_half z_is1 (half d t')) ++ [None]).
    Hypothesis Hdir : ct_dir t' = ct_dir t.

    Definition TI : ctape val Sym := mk (shape t) inits.
    Definition NI (d : dir) := near (dist d) (half d TI).
    Definition FI (d : dir) := far (dist d) (half d TI).
    Definition GI (d : dir) := far (dist d) (half d t').
    Definition bm (d : dir) : bool := match FI d with [] => true | _ => false end.
    Definition out (d : dir) := id_half (1 + length (NI d)) (FI d).
    Definition out2 (d : dir) := cst (GI d).
    Definition TM : ctape val (Sym * bool) :=
      CTape (ct_dir t) (mark (bm L) (NI L) ++ mark true (out2 L)) (mark (bm R) (NI R) ++ mark true (out2 R)).

    Lemma TI_syms d : map k_sym (half d TI) = map k_sym (half d t).
    Proof.
      pose proof (shape_mk (shape t) inits Li) as E. unfold shape in E at 1 3. injection E as E1 E2.
      destruct d; unfold TI; simpl half; assumption.
    Qed.
    Lemma wf_half (x : ctape Z Sym) d : wf x -> hwf i0 (half d x).
    Proof. intros [A B]. destruct d; assumption. Qed.
    Lemma half_match d : (FI d = [] <-> GI d = []) /\ map k_sym (NI d) = map k_sym (near (dist d) (half d t')) /\
      Forall2 (frel z_is1 z_is1) (map k_num (near (dist d) (half d t))) (map k_num (near (dist d) (half d t'))).
    Proof.
      destruct (match_half i0 (dist d) (half d t) (half d t') (hwf_bform _ _ (wf_half t d W))
                  (hwf_bform _ _ (wf_half t' d W')) (Hmatch d)) as (A & B & C).
      split; [|split; [|exact C]].
      - rewrite <- A. unfold FI. split; intros E.
        + apply map_eq_nil with (f := k_sym). rewrite <- far_map, <- TI_syms, far_map, E. reflexivity.
        + apply map_eq_nil with (f := k_sym). rewrite <- far_map, TI_syms, far_map, E. reflexivity.
      - rewrite <- B. unfold NI. now rewrite <- !near_map, TI_syms.
    Qed.
    Lemma out_nil d : out d = [] -> FI d = [].
    Proof. unfold out. destruct (FI d); [auto|discriminate]. Qed.
    Lemma Hnil' d : out d = [] -> out2 d = [] /\ bm d = true.
    Proof.
      intros E. apply out_nil in E. unfold bm, out2. rewrite E. destruct (half_match d) as [[A _] _].
      rewrite (A E). auto.
    Qed.
    Lemma Hout' d : out d <> [] -> bm d = false /\ out2 d <> [] /\
      exists i, head_id (out d) = Some i /\ (dist d < i)%nat.
    Proof.
      intros H. assert (HF : FI d <> []) by (intros E; apply H; unfold out; now rewrite E).
      split; [unfold bm; destruct (FI d); congruence|]. split.
      - unfold out2. destruct (half_match d) as [[_ A] _]. intros E. apply HF, A.
        destruct (GI d); [reflexivity|discriminate].
      - exists (1 + length (NI d))%nat. destruct (far_len _ _ HF) as [E _]. unfold NI. rewrite E. split; [|lia].
        unfold out, NI. rewrite E. destruct (FI d); [congruence|reflexivity].
    Qed.
    Lemma Hconst' d : Forall (fun b => match k_num b with
      | None => True | Some v => exists n, v = VS (inject_Z n) /\ 1 <= n end) (out2 d).
    Proof.
      unfold out2, cst. rewrite Forall_map. cbn [k_num].
      assert (P : Forall pos (map k_num (half d t'))).
      { pose proof (wf_half t' d W') as Hw. induction Hw; simpl; constructor; simpl; auto. lia. }
      rewrite Forall_map in P. unfold GI. rewrite <- (near_far (dist d) (half d t')) in P.
      apply Forall_app in P. destruct P as [_ P]. eapply Forall_impl; [|exact P].
      intros b Hb. cbv beta in Hb |- *. destruct (k_num b) as [z|]; simpl in *; eauto.
    Qed.

    Definition S2 : sim val (Sym * bool) St :=
      Sim TM q (ct_dir t) (VE (Expr [] 0%Q)) 0 RUNNING [] (Some []) None 0.
    Lemma start_srel : srel bm out out2 (lim_sim0 t q inits) S2.
    Proof.
      split; [|repeat split; reflexivity]. split; [reflexivity|].
      intros d. exists (id_half 1 (NI d)). split.
      - change (half d (s_tape (lim_sim0 t q inits))) with (half d (id_tape TI)).
        assert (E : half d (id_tape TI) = id_half 1 (half d TI)) by (destruct d; reflexivity).
        rewrite E. unfold out. change (1 + length (NI d))%nat with (1 + length (NI d))%nat.
        rewrite <- id_half_app. unfold NI, FI. now rewrite near_far.
      - rewrite un_id_half. destruct d; reflexivity.
    Qed.
    Lemma hvars_app (a b : list (blk val (Sym * bool))) : hvars (a ++ b) = hvars a ++ hvars b.
    Proof. apply flat_map_app. Qed.
    Lemma hvars_mark b (h : list (blk val Sym)) : hvars (mark b h) = flat_map nvars (map k_num h).
    Proof. unfold hvars, mark. induction h as [|x h IH]; simpl; auto. now rewrite IH. Qed.
    Lemma vars_cst (h : list (blk Z Sym)) : flat_map nvars (map k_num (cst h)) = [].
    Proof. induction h as [|[s [z|]] h IH]; simpl; auto. Qed.
    Definition V2 : list nat := flat_map nvars (cut (length (ct_l t)) dl dr inits).
    Lemma len_l : length (ct_l t) = length (ct_l TI).
    Proof. pose proof (TI_syms L) as E. simpl half in E. now rewrite <- (map_length k_sym), <- E, map_length. Qed.
    Lemma cut_inits : cut (length (ct_l t)) dl dr inits = rev (map k_num (NI L)) ++ rev (map k_num (NI R)).
    Proof.
      rewrite <- (nums_mk (shape t) inits Li) at 1. fold TI. rewrite len_l, cut_nums. reflexivity.
    Qed.
    Lemma TM_vars : Permutation (tvars TM) V2.
    Proof.
      unfold V2. rewrite cut_inits. unfold tvars, TM. cbn [ct_l ct_r]. rewrite !hvars_app, !hvars_mark.
      unfold out2. rewrite !vars_cst, !app_nil_r, flat_map_app.
      apply Permutation_app; apply Permutation_flat_map, Permutation_rev.
    Qed.
    Lemma start_ginv V m0 : V = flat_map nvars inits -> NoDup V ->
      ginv M V m0 (gen_sim0 t q inits) -> ginv (mark_machine bm M) V2 m0 S2.
    Proof.
      intros EV ND G. pose proof (gi_form _ _ _ _ G) as Fm. cbn [gen_sim0 s_tape] in Fm. fold TI in Fm.
      assert (Hf : forall d, hform (i0, true) (av m0) (mark (bm d) (NI d) ++ mark true (out2 d))).
      { intros d. assert (Fd : hform i0 (av m0) (half d TI)) by (destruct Fm; destruct d; assumption).
        rewrite <- (near_far (dist d) (half d TI)) in Fd. fold (NI d) (FI d) in Fd.
        destruct (half_match d) as (Hm & _ & _). unfold bm, out2. destruct (FI d) as [|f fs] eqn:EF.
        - rewrite (proj1 Hm eq_refl). simpl. rewrite app_nil_r in *. now apply hform_mark.
        - eapply hform_mark_app; [exact Fd|discriminate|]. apply cst_form.
          apply hwf_far; [now apply wf_half|]. intros E. apply Hm in E. discriminate. }
      assert (ND2 : NoDup V2) by (subst V; now apply cut_nodup).
      constructor; cbn [S2 s_tape s_dir s_steps s_seen].
      - split; [apply (Hf L)|apply (Hf R)].
      - eapply Permutation_NoDup; [apply Permutation_sym, TM_vars|exact ND2].
      - intros x Hx. eapply Permutation_in; [apply TM_vars|exact Hx].
      - intros x Hx. apply (gi_minv _ _ _ _ G). subst V. unfold V2 in Hx. apply in_flat_map in Hx.
        destruct Hx as (o & Ho & Hx). apply in_flat_map. exists o. split; auto. eapply cut_incl; eauto.
      - reflexivity.
      - split; [constructor|]. exists 0. reflexivity.
      - intros x [].
      - exists []. split; [reflexivity|]. split; [constructor|]. split; constructor.
    Qed.

    Definition padI (ns : list (option val)) : list (option val) :=
      pad (padi (knums (GI L))) (padi (knums (GI R))) (length (near dl (ct_l t'))) ns.
    Lemma TM_un : un_tape TM = CTape (ct_dir t) (NI L ++ cst (GI L)) (NI R ++ cst (GI R)).
    Proof. unfold un_tape, TM. cbn [ct_dir ct_l ct_r]. now rewrite !map_app, !un_mark. Qed.
    Lemma pad_shape (a b : list (blk val Sym)) : map k_sym a = map k_sym (near dl (ct_l t')) ->
      map k_sym b = map k_sym (near dr (ct_r t')) ->
      shape (CTape (ct_dir t) (a ++ cst (GI L)) (b ++ cst (GI R))) = shape t' /\
      nums (CTape (ct_dir t) (a ++ cst (GI L)) (b ++ cst (GI R))) = padI (rev (map k_num a) ++ rev (map k_num b)).
    Proof.
      intros Ea Eb. split.
      - unfold shape. cbn [ct_dir ct_l ct_r]. rewrite !map_app, !cst_sym, Ea, Eb, <- !map_app.
        unfold GI. cbn [dist half]. rewrite !near_far, Hdir. reflexivity.
      - rewrite nums_pad. unfold padI. do 2 f_equal. now rewrite <- (map_length k_sym a), Ea, map_length.
    Qed.

    Lemma pad_trans V m0 delta s' m seen : V = flat_map nvars inits -> NoDup V ->
      ginv M V m0 (gen_sim0 t q inits) -> (1 <= delta)%nat ->
      lim_loop M delta (lim_sim0 t q inits) m0 (0%nat, 0%nat) = POk (s', m, (dl, dr)) ->
      shape (un_tape (s_tape s')) = shape t -> s_state s' = q -> s_seen s' = Some seen ->
      incl (v_variables (s_steps s')) V2 /\ dvars seen V2 /\
      forall sg, on_valid V2 m sg ->
        trans_ok T M Rp q (mk (shape t') (ez sg (padI (cut (length (ct_l t)) dl dr inits))))
          (mk (shape t') (ez sg (padI (cut (length (ct_l t)) dl dr (nums (un_tape (s_tape s')))))))
          (zev sg (s_steps s')) (ed sg seen).
    Proof.
      intros EV ND G Hd E Esh Eq Es.
      destruct (replay_loop Gd T M Rp halted MS SW dist bm out out2 Hout' Hconst' V V2 delta
                  (lim_sim0 t q inits) m0 (0%nat, 0%nat) s' m (dl, dr) S2 E)
        as (s2 & Hm & G1 & ((Sd & Sh) & Sq & _ & Ss & Sse) & G2 & Run).
      { intros [|]; simpl; lia. }
      { rewrite un_sim0. exact G. }
      { apply start_srel. }
      { eapply start_ginv; eauto. }
      (* final halves *)
      destruct (Sh L) as (al & El & El2). destruct (Sh R) as (ar & Er & Er2). cbn [half] in El, El2, Er, Er2.
      destruct (shape_un _ _ (eq_trans Esh (eq_sym (shape_mk (shape t) inits Li)))) as (Ed & Yl & Yr). fold TI in Yl, Yr.
      cbn [un_tape ct_l ct_r] in Yl, Yr.
      assert (Hin : forall d a, map k_sym (map un_blk (a ++ out d)) = map k_sym (half d TI) ->
        map k_sym (map un_blk a) = map k_sym (NI d)).
      { intros d a H. rewrite !map_app in H. unfold out in H. rewrite un_id_half in H.
        rewrite <- (near_far (dist d) (half d TI)) in H. fold (NI d) (FI d) in H. rewrite map_app in H.
        now apply app_inv_tail in H. }
      rewrite El in Yl. rewrite Er in Yr. apply (Hin L) in Yl. apply (Hin R) in Yr.
      destruct (half_match L) as (_ & Kl & _). destruct (half_match R) as (_ & Kr & _). cbn [dist half] in Kl, Kr.
      assert (UT : un_tape (s_tape s2) = CTape (ct_dir t) (map un_blk al ++ cst (GI L)) (map un_blk ar ++ cst (GI R))).
      { unfold un_tape. rewrite El2, Er2. rewrite !map_app, !un_mark. rewrite Sd. cbn [un_tape ct_dir] in Ed.
        rewrite Ed. reflexivity. }
      destruct (pad_shape (map un_blk al) (map un_blk ar) (eq_trans Yl Kl) (eq_trans Yr Kr)) as [Z1 Z2].
      destruct (pad_shape (NI L) (NI R) Kl Kr) as [Z3 Z4]. rewrite <- cut_inits in Z4.
      assert (Ecut : cut (length (ct_l t)) dl dr (nums (un_tape (s_tape s'))) =
                     rev (map k_num (map un_blk al)) ++ rev (map k_num (map un_blk ar))).
      { assert (Ll : length (ct_l t) = length (ct_l (un_tape (s_tape s')))).
        { unfold shape in Esh. injection Esh as _ Y _. cbn [un_tape ct_l]. rewrite <- (map_length k_sym (ct_l t)), <- Y. now rewrite !map_length. }
        rewrite Ll, cut_nums. cbn [un_tape ct_l ct_r]. rewrite El, Er, !map_app. unfold out. rewrite !un_id_half.
        assert (N1 : length (map un_blk al) = length (NI L)) by (rewrite <- (map_length k_sym), Yl; apply map_length).
        assert (N2 : length (map un_blk ar) = length (NI R)) by (rewrite <- (map_length k_sym), Yr; apply map_length).
        destruct (near_split dl (half L TI) (map un_blk al) (FI L) N1 eq_refl) as [-> _].
        destruct (near_split dr (half R TI) (map un_blk ar) (FI R) N2 eq_refl) as [-> _]. reflexivity. }
      rewrite Ecut, <- Z2. rewrite <- Z4.
      destruct (gi_seen _ _ _ _ G2) as (seen2 & D1 & D2 & D3 & D4). rewrite Sse, Es in D1. injection D1 as <-.
      pose proof (gi_svars _ _ _ _ G2) as Hsv. rewrite Ss in Hsv.
      split; [exact Hsv|]. split; [exact D4|]. intros sg Hov.
      destruct (on_valid_ex V2 m sg Hov) as (sg' & Hv & Ha).
      assert (Ex1 : ez sg (nums (un_tape TM)) = ez sg' (nums (un_tape TM))).
      { rewrite TM_un, Z4. eapply ez_ext with (V := V2); [|intros x Hx; symmetry; auto].
        unfold padI. rewrite pad_flat by apply padi_vars. apply incl_refl. }
      assert (Ex2 : ez sg (nums (un_tape (s_tape s2))) = ez sg' (nums (un_tape (s_tape s2)))).
      { eapply ez_ext with (V := V2); [|intros x Hx; symmetry; auto].
        intros x Hx. apply (gi_vars _ _ _ _ G2). eapply Permutation_in; [apply Permutation_sym, tvars_nums|].
        rewrite un_nums2 in Hx. exact Hx. }
      assert (Ex3 : zev sg (s_steps s') = zev sg' (s_steps s')) by (apply zev_ext; intros x Hx; symmetry; auto).
      assert (Ex4 : ed sg seen = ed sg' seen) by (apply (ed_ext sg sg' seen V2); auto; intros x Hx; symmetry; auto).
      rewrite <- UT, <- TM_un, Ex1, Ex2, Ex3, Ex4.
      rewrite <- Z1 at 2. rewrite <- Z3. rewrite <- UT, <- TM_un, <- !et_self, <- !et_un.
      split.
      { eapply twf_un. eapply form_wf; [exact (gi_form _ _ _ _ G2)|exact Hv]. }
      intros c0 R0.
      destruct (Run sg' c0 Hv) as [(P1 & (c' & P2 & P3) & d & P4 & P5) P6].
      { split; [change (0 <= 0); lia|]. split.
        - exists c0. split; [reflexivity|]. unfold mark_Rp. eapply (ms_ext _ _ _ _ _ MS); [|exact R0].
          apply deq_sym, tden_un.
        - exists []. split; [reflexivity|]. apply zseen_nil. }
      change (zev sg' (s_steps S2)) with 0 in P6. rewrite Ss in P1, P2, P5, P6. rewrite Sse, Es in P4. injection P4 as <-.
      split; [lia|]. exists c'. split; [exact P2|]. split; [|exact P5].
      unfold mark_Rp in P3. eapply (ms_ext _ _ _ _ _ MS); [|exact P3]. rewrite Sq, Eq. apply tden_un.
    Qed.
  End Match.

  Lemma Forall2_len {A B} (l : list A) (l' : list B) : length l = length l' -> Forall2 (fun _ _ => True) l l'.
  Proof. revert l'. induction l as [|a l IH]; intros [|b l'] H; try discriminate; constructor; auto. Qed.
  Lemma cut_len {A B} nl dl dr (l : list A) (l' : list B) : length l = length l' ->
    length (cut nl dl dr l) = length (cut nl dl dr l').
  Proof. intros H. eapply Forall2_length', Forall2_cut, Forall2_len, H. Qed.
  Lemma padi_align cs : Forall2 dalign (padi cs) cs.
  Proof. induction cs as [|[z|] cs IH]; simpl; constructor; simpl; auto. Qed.
  Lemma nums_split (t : ctape Z Sym) dl dr : nums t =
    pad (knums (far dl (ct_l t))) (knums (far dr (ct_r t))) (length (near dl (ct_l t)))
        (rev (map k_num (near dl (ct_l t))) ++ rev (map k_num (near dr (ct_r t)))).
  Proof.
    unfold pad. rewrite firstn_exact, skipn_exact by (now rewrite rev_length, map_length).
    assert (E : forall d (h : list (blk Z Sym)), knums (far d h) ++ rev (map k_num (near d h)) = rev (map k_num h)).
    { intros d h. unfold knums. now rewrite <- rev_app_distr, <- map_app, near_far. }
    now rewrite !E.
  Qed.
  Lemma pos_app (a b : list (blk Z Sym)) : Forall pos (map k_num (a ++ b)) -> Forall pos (knums b).
  Proof. rewrite map_app, Forall_app. intros [_ H]. unfold knums. now apply Forall_rev. Qed.
  Lemma hwf_pos (h : list (blk Z Sym)) : hwf i0 h -> Forall pos (map k_num h).
  Proof. induction 1; simpl; constructor; simpl; auto. lia. Qed.

  Lemma prove_lim_ok next t q c delta : wf t -> Rp (den t q) c -> (1 <= delta)%nat ->
    exists nx o, prove_lim M next t q delta = Some (nx, o) /\
      match o with
      | None => True
      | Some (inl r) => lim_ok (lkey_of q (ct_dir t) (strip_half z_is1 (ct_l t)) (lr_left r),
                                lkey_of q (ct_dir t) (strip_half z_is1 (ct_r t)) (lr_right r), r)
      | Some (inr r) => rule_ok T M Rp (strip_config z_is1 q t) r
      end.
  Proof.
    intros W R0 Hdelta.
    destruct (prove_rule_ok Gd T M Rp halted MS SW PU next t q c delta W R0 Hdelta) as (nxp & op & Ep & Hp).
    unfold prove_rule in Ep. unfold prove_lim.
    destruct (gen_nums next (nums t)) as [[[nx inits] m0]|] eqn:E; [|discriminate].
    destruct (sim0_ginv t q next nx inits m0 W E) as [G0 Li].
    destruct (loop_ok Gd T M Rp halted MS SW PU t q c next nx inits m0 delta W R0 E) as (Hi & ND & _ & L).
    set (V := flat_map nvars inits) in *.
    pose proof (lim_loop_erase M V delta (lim_sim0 t q inits) m0 (0%nat, 0%nat)) as Er. rewrite un_sim0 in Er.
    specialize (Er G0). rewrite Er in Ep, L.
    destruct (lim_loop M delta (lim_sim0 t q inits) m0 (0%nat, 0%nat)) as [| |[[s m] [dl dr]]] eqn:El; cbn [un_pr] in Ep, L.
    { discriminate. }
    { do 2 eexists. split; [reflexivity|exact I]. }
    destruct (L (un_sim s) m eq_refl) as (Lm & GI0 & _). clear L.
    destruct (key_eqb M (strip_config v_is1 (s_state (un_sim s)) (s_tape (un_sim s))) (strip_config z_is1 q t)) eqn:Ek;
      simpl negb in *; cbv iota in *; [|do 2 eexists; split; [reflexivity|exact I]].
    apply (key_eqb_eq M (ms_sym_eq _ _ _ _ _ MS) (ms_st_eq _ _ _ _ _ MS)) in Ek.
    pose proof (gi_form _ _ _ _ GI0) as Fm.
    destruct (strip_same i0 _ _ _ _ _ _ (tform_bform _ _ _ Fm) (twf_bform _ _ W) Ek) as (Eq & Esh & Fr).
    pose proof (tform_nums _ V m _ Fm (gi_vars _ _ _ _ GI0)) as Fn.
    assert (FI0 : Forall2 (fi V m) (nums (s_tape (un_sim s))) inits).
    { pose proof (Forall2_left _ _ _ _ Fn (Forall2_trans _ _ _ _ _ Fr Hi)) as G1.
      eapply Forall2_impl; [|exact G1]. intros f i (H1 & n & H2 & H3). eapply fi_make; eauto. }
    destruct (s_seen (un_sim s)) as [seen|] eqn:Es; [|discriminate].
    set (finals := nums (s_tape (un_sim s))) in *. set (diffs := map diff_num (combine finals inits)) in *.
    destruct (forallb num_scalar diffs) eqn:Ed.
    2:{ destruct (make_gen inits finals m (un_sim s) seen) as [r|]; [|discriminate].
        do 2 eexists. split; [reflexivity|]. injection Ep as <- <-. exact Hp. }
    destruct (diffs_ok V m finals inits FI0 Ed) as [D1 D2]. fold diffs in D1, D2.
    destruct (make_diff inits diffs m (un_sim s) seen) as [[ti td num seen'|]|] eqn:Em.
    2:{ exfalso. unfold make_diff in Em. cbn zeta in Em.
        repeat match type of Em with (match ?x with _ => _ end) = _ => destruct x; try discriminate end. }
    2:{ discriminate. }
    do 2 eexists. split; [reflexivity|]. clear Ep Hp. unfold lim_ok. cbn [lr_left lr_right lr_init lr_diff lr_steps lr_seen].
    intros t' q' W' Kl Kr. unfold lkey_of in Kl, Kr. injection Kl as Kq Kd Kl. injection Kr as _ _ Kr. subst q'.
    assert (Hmatch : forall d, near (dist dl dr d) (map Some (strip_half z_is1 (half d t)) ++ [None]) =
      near (dist dl dr d) (map Some (strip_half z_is1 (half d t')) ++ [None])).
    { intros [|]; symmetry; assumption. }
    destruct (pad_trans t q inits dl dr t' W W' Li Hmatch Kd V m0 delta s m seen eq_refl ND G0 Hdelta El Esh Eq Es)
      as (Hs & Hv & Run).
    assert (Pl : Forall pos (knums (GI dl dr t' L))).
    { unfold GI. cbn [dist half]. apply (pos_app (near dl (ct_l t'))). rewrite near_far. destruct W'. now apply hwf_pos. }
    assert (Pr : Forall pos (knums (GI dl dr t' R))).
    { unfold GI. cbn [dist half]. apply (pos_app (near dr (ct_r t'))). rewrite near_far. destruct W'. now apply hwf_pos. }
    destruct (make_diff_pad (length (ct_l t)) dl dr (length (near dl (ct_l t'))) (knums (GI dl dr t' L)) (knums (GI dl dr t' R))
                inits diffs m (un_sim s) seen ti td num seen' Em D1 ND Hs Hv Pl Pr) as [-> Emp].
    set (ct := cut (length (ct_l t)) dl dr) in *.
    destruct (gi_seen _ _ _ _ GI0) as (seen0 & Es0 & S1 & S2 & S3). rewrite Es in Es0. injection Es0 as <-.
    assert (EV2 : flat_map nvars (padI dl dr t' (cut (length (ct_l t)) dl dr inits)) = V2 t inits dl dr).
    { unfold padI. rewrite pad_flat by apply padi_vars. reflexivity. }
    destruct (make_diff_ok T M Rp (shape t') q (padI dl dr t' (cut (length (ct_l t)) dl dr inits))
                (pad (padd (knums (GI dl dr t' L))) (padd (knums (GI dl dr t' R))) (length (near dl (ct_l t')))
                   (cut (length (ct_l t)) dl dr diffs)) m (un_sim s) seen)
      as (ti2 & num2 & seen2 & E2 & K1 & K2); try (rewrite EV2); auto.
    { exact (gi_steps _ _ _ _ GI0). }
    { now apply cut_nodup. }
    { apply Forall2_pad; [now apply pad_dblock|now apply pad_dblock|now apply Forall2_cut]. }
    { intros sg Hov.
      assert (Ead : addk 1 (ez sg (padI dl dr t' (cut (length (ct_l t)) dl dr inits)))
                      (pad (padd (knums (GI dl dr t' L))) (padd (knums (GI dl dr t' R))) (length (near dl (ct_l t')))
                         (cut (length (ct_l t)) dl dr diffs)) =
                    ez sg (padI dl dr t' (cut (length (ct_l t)) dl dr finals))).
      { unfold padI, ez, addk. rewrite !pad_map. rewrite pad_combine.
        - rewrite pad_map. f_equal; try apply add_pad. rewrite <- !cut_map. 
          change (map (option_map (zev sg)) finals) with (ez sg finals). rewrite D2. unfold addk, ez.
          rewrite ?cut_map, cut_combine, ?cut_map; auto. rewrite map_length. eapply Forall2_length'; eauto.
        - rewrite map_length. now rewrite padi_len, padd_len.
        - rewrite map_length. now rewrite padi_len, padd_len.
        - rewrite map_length. apply cut_len. eapply Forall2_length'; eauto. }
      rewrite Ead. apply Run. exact Hov. }
    change (padI dl dr t' (cut (length (ct_l t)) dl dr inits)) with
      (pad (padi (knums (GI dl dr t' L))) (padi (knums (GI dl dr t' R))) (length (near dl (ct_l t')))
        (cut (length (ct_l t)) dl dr inits)) in E2.
    unfold ct in Emp. rewrite Emp in E2. injection E2 as <- <- <-.
    split; [exact K1|].
    destruct (half_match t inits dl dr t' W W' Li Hmatch L) as (_ & Yl & Fl).
    destruct (half_match t inits dl dr t' W W' Li Hmatch R) as (_ & Yr & Frr). cbn [dist half] in Yl, Yr, Fl, Frr.
    assert (Len : length (cut (length (ct_l t)) dl dr (nums t)) =
      (length (near dl (ct_l t')) + length (near dr (ct_r t')))%nat).
    { rewrite cut_nums, app_length, !rev_length. f_equal.
      - rewrite (Forall2_length' _ _ _ Fl). apply map_length.
      - rewrite (Forall2_length' _ _ _ Frr). apply map_length. }
    assert (Lti : length ti = length inits).
    { unfold make_diff in Em. destruct (map_opt (tighten m) inits) as [l|] eqn:Ml; [|discriminate]. cbn zeta in Em.
      repeat match type of Em with (match ?x with _ => _ end) = _ => destruct x; try discriminate end.
      injection Em as <- _ _ _.
      apply F2_map_opt, Forall2_length' in Ml. now rewrite map_length. }
    pose proof (Forall2_length' _ _ _ Hi) as Lni. pose proof (Forall2_length' _ _ _ D1) as Ldi.
    split; [|split; [rewrite <- Len; apply cut_len; congruence|rewrite <- Len; apply cut_len; congruence]].
    assert (Al : Forall2 dalign (padI dl dr t' (cut (length (ct_l t)) dl dr inits)) (nums t')).
    { rewrite (nums_split t' dl dr). unfold padI. apply Forall2_pad; try apply padi_align.
      assert (F1 : Forall2 (frel z_is1 z_is1) (cut (length (ct_l t)) dl dr (nums t))
                     (rev (map k_num (near dl (ct_l t'))) ++ rev (map k_num (near dr (ct_r t'))))).
      { rewrite cut_nums. apply Forall2_app; now apply Forall2_rev. }
      assert (Pn : Forall pos (rev (map k_num (near dl (ct_l t'))) ++ rev (map k_num (near dr (ct_r t'))))).
      { destruct W' as [Wl Wr]. apply hwf_pos in Wl, Wr. rewrite <- (near_far dl (ct_l t')), map_app in Wl.
        rewrite <- (near_far dr (ct_r t')), map_app in Wr. apply Forall_app in Wl, Wr.
        apply Forall_app. split; apply Forall_rev; tauto. }
      pose proof (Forall2_left _ _ _ _ Pn (Forall2_trans _ _ _ _ _ (Forall2_flip _ _ _ F1)
                    (Forall2_cut _ (length (ct_l t)) dl dr _ _ Hi))) as G1.
      apply Forall2_flip. eapply Forall2_impl; [|exact G1]. intros n i (H1 & n' & H2 & H3). cbv beta in H2.
      destruct n' as [z'|]; simpl in H3.
      - destruct n as [z|]; simpl in H2; [|contradiction]. unfold z_is1 in H2.
        destruct (z' =? 1); [subst i; simpl; symmetry in H2; apply Z.eqb_eq in H2; now subst|].
        destruct H3 as (x & k & -> & _). exact H1.
      - destruct n; simpl in H2; [contradiction|]. subst i. exact I. }
    change (padded (LRule (ct ti) (ct diffs) num seen' dl dr) t' padi (ct ti)) with (padI dl dr t' (ct ti)).
    unfold ct. change (pad (padi (knums (GI dl dr t' L))) (padi (knums (GI dl dr t' R))) (length (near dl (ct_l t')))
                  (cut (length (ct_l t)) dl dr ti)) with (padI dl dr t' (cut (length (ct_l t)) dl dr ti)) in K2.
    clear -Al K2. revert K2. generalize (padI dl dr t' (cut (length (ct_l t)) dl dr ti)).
    induction Al as [|i n is ns H HF IH]; intros l Hl; inversion Hl as [|? o ? os Ho Hos]; subst; constructor; auto.
    destruct i as [[|]|]; [subst; auto| |subst; auto]. destruct Ho as [e' ->]. destruct n; auto.
  Qed.
End Lim.
