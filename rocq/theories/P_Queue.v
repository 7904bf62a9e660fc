(** * The work list: nothing lost, nothing twice *)
Require Import ZArith List Lia Bool Arith Permutation.
From Verif Require Import Spec_TM Spec_Rename M_Turing_Machine M_IO M_Enum P_Macro P_Quint P_IO P_Tree P_Complete P_Unique.
Import ListNotations.
Open Scope nat_scope.

(** [forest expand js l]: [l] lists the jobs [js] and all that come from them *)
Inductive forest {J} (expand : J -> list J) : list J -> list J -> Prop :=
| forest_nil : forest expand [] []
| forest_cons j js a b : forest expand (expand j) a -> forest expand js b -> forest expand (j :: js) (j :: a ++ b).

Section Forest.
  Context {J : Type} (expand : J -> list J).
  Notation forest := (forest expand).

  Lemma forest_app x y a b : forest x a -> forest y b -> forest (x ++ y) (a ++ b).
  Proof.
    induction 1 as [|j js a1 a2 H1 _ H2 IH]; simpl; intros Hb; auto.
    rewrite <- app_assoc. constructor; auto.
  Qed.

  Lemma forest_perm x y : Permutation x y -> forall a, forest x a -> exists b, forest y b /\ Permutation a b.
  Proof.
    induction 1 as [|j x y P IH|i j x|x y z P1 IH1 P2 IH2]; intros a H.
    - inversion H; subst. exists []. split; constructor.
    - inversion H as [|? ? a1 a2 H1 H2]; subst. destruct (IH _ H2) as (b & Hb & P').
      exists (j :: a1 ++ b). split; [constructor; auto|]. constructor. now apply Permutation_app_head.
    - inversion H as [|? ? a1 a2 H1 H2]; subst. inversion H2 as [|? ? a3 a4 H3 H4]; subst.
      exists (i :: a3 ++ j :: a1 ++ a4). split; [constructor; auto; constructor; auto|].
      rewrite <- (Permutation_middle a1), <- (Permutation_middle a3), !app_assoc.
      rewrite (Permutation_app_comm a1 a3). apply perm_swap.
    - destruct (IH1 _ H) as (b & Hb & Pb). destruct (IH2 _ Hb) as (c & Hc & Pc).
      exists c. split; auto. now transitivity b.
  Qed.

  Lemma forest_split x : forall y a, forest (x ++ y) a -> exists b c, forest x b /\ forest y c /\ Permutation a (b ++ c).
  Proof.
    induction x as [|j x IH]; simpl; intros y a H.
    - exists [], a. repeat split; auto. constructor.
    - inversion H as [|? ? a1 a2 H1 H2]; subst. destruct (IH _ _ H2) as (b & c & Hb & Hc & P).
      exists (j :: a1 ++ b), c. split; [constructor; auto|]. split; auto. simpl. constructor.
      rewrite <- app_assoc. now apply Permutation_app_head.
  Qed.

  (** the jobs of a forest do not depend on how it was listed *)
  Lemma forest_fun x : forall a, forest x a -> forall b, forest x b -> a = b.
  Proof.
    intros a H. induction H as [|j js a1 a2 _ IH1 _ IH2]; intros b H'; inversion H'; subst; auto.
    f_equal. f_equal; auto.
  Qed.

  Lemma forest_In_self x a j : forest x a -> In j x -> In j a.
  Proof.
    induction 1 as [|i js a1 a2 _ _ _ IH]; simpl; auto. intros [<-|H]; auto. right. apply in_or_app. auto.
  Qed.
  Lemma forest_closed x a j i : forest x a -> In j a -> In i (expand j) -> In i a.
  Proof.
    induction 1 as [|k js a1 a2 H1 IH1 H2 IH2]; simpl; auto. intros [<-|H] Hi.
    - right. apply in_or_app. left. eapply forest_In_self; eauto.
    - right. apply in_app_iff in H. apply in_or_app. destruct H; auto.
  Qed.
End Forest.

Section Queue.
  Context {J Rec : Type} (expand : J -> list J) (written unrun : J -> Rec) (shuffle : nat -> list J -> list J).
  Hypothesis Hshuffle : forall k l, Permutation (shuffle k l) l.
  Notation forest := (forest expand).

  Lemma pop_perm d q : match pop_job J d q with
                       | Some (j, q') => Permutation q (j :: q')
                       | None => q = []
                       end.
  Proof.
    destruct d; simpl.
    - destruct (rev q) as [|j r] eqn:E.
      + apply (f_equal (@rev J)) in E. now rewrite rev_involutive in E.
      + rewrite (Permutation_rev q), E. constructor. apply Permutation_rev.
    - destruct q; auto.
  Qed.

  (** without a limit *)
  Lemma loop_all d : forall nodes q fuel k out, forest q nodes -> length nodes <= fuel ->
    exists out', enum_loop J Rec expand written shuffle d None fuel k q out = Some (k + length nodes, [], out ++ out') /\
      Permutation out' (map written nodes).
  Proof.
    intros nodes. remember (length nodes) as s eqn:Es. revert nodes Es.
    induction s as [s IH] using lt_wf_ind. intros nodes Es q fuel k out F Hfuel.
    pose proof (pop_perm d q) as P. destruct fuel as [|fuel]; simpl.
    - destruct (pop_job J d q) as [(j & q')|].
      + destruct (forest_perm _ _ _ P _ F) as (b & Fb & Pb). inversion Fb; subst.
        apply Permutation_length in Pb. simpl in Pb. lia.
      + subst q. inversion F; subst. exists []. rewrite app_nil_r, Nat.add_0_r. split; constructor.
    - destruct (pop_job J d q) as [(j & q')|].
      2:{ subst q. inversion F; subst. exists []. simpl. rewrite app_nil_r, Nat.add_0_r. split; constructor. }
      destruct (forest_perm _ _ _ P _ F) as (b & Fb & Pb). inversion Fb as [|? ? a1 a2 F1 F2]; subst.
      destruct (forest_perm _ _ _ (Permutation_sym (Hshuffle k (expand j))) _ F1) as (a1' & F1' & P1).
      pose proof (forest_app expand _ _ _ _ F2 F1') as F'.
      assert (Hl : length nodes = S (length (a2 ++ a1'))).
      { rewrite (Permutation_length Pb), app_length. simpl. rewrite app_length, (Permutation_length P1). lia. }
      destruct (IH (length (a2 ++ a1')) ltac:(lia) _ eq_refl _ fuel (S k) (out ++ [written j]) F' ltac:(lia)) as (out' & E & P').
      exists (written j :: out'). split.
      + rewrite E. f_equal. f_equal; [f_equal; lia|]. now rewrite <- app_assoc.
      + rewrite (Permutation_map written Pb). simpl. constructor. rewrite P', !map_app, (Permutation_map written P1).
        apply Permutation_app_comm.
  Qed.

  Lemma loop_finite d : forall fuel q k out r, enum_loop J Rec expand written shuffle d None fuel k q out = Some r -> exists nodes, forest q nodes.
  Proof.
    induction fuel as [|fuel IH]; simpl; intros q k out r E; pose proof (pop_perm d q) as P;
      destruct (pop_job J d q) as [(j & q')|]; try discriminate;
      try (subst q; exists []; constructor).
    destruct (IH _ _ _ _ E) as (nodes & F). destruct (forest_split _ _ _ _ F) as (b & c & Fb & Fc & _).
    destruct (forest_perm _ _ _ (Hshuffle k (expand j)) _ Fc) as (c' & Fc' & _).
    destruct (forest_perm expand _ _ (Permutation_sym P) (j :: c' ++ b)) as (x & Fx & _); eauto. constructor; auto.
  Qed.

  Lemma main_all d : forall inputs nodes fuel k out, forest inputs nodes -> length nodes <= fuel ->
    exists out', enum_main J Rec expand written unrun shuffle d 0 fuel k inputs [] out = Some (k + length nodes, [], out ++ out') /\
      Permutation out' (map written nodes).
  Proof.
    induction inputs as [|j inputs IH]; intros nodes fuel k out F Hfuel.
    - inversion F; subst. exists []. simpl. rewrite app_nil_r, Nat.add_0_r. split; constructor.
    - inversion F as [|? ? a b F1 F2]; subst. cbn [length] in Hfuel. rewrite app_length in Hfuel.
      assert (Fj : forest [j] (j :: a)) by (rewrite <- (app_nil_r a); constructor; auto; constructor).
      destruct (loop_all d (j :: a) [j] fuel k out Fj ltac:(cbn [length]; lia)) as (o1 & E1 & P1).
      cbn [enum_main]. unfold continue_enum. simpl (if Nat.eqb 0 0 then _ else _). cbn [app]. rewrite E1.
      destruct (IH b fuel (k + length (j :: a)) (out ++ o1) F2 ltac:(lia)) as (o2 & E2 & P2).
      exists (o1 ++ o2). rewrite E2. split.
      + rewrite <- app_assoc. do 3 f_equal. cbn [length]. rewrite app_length. lia.
      + rewrite P1, P2. simpl. rewrite map_app. reflexivity.
  Qed.

  Lemma main_finite d : forall inputs fuel k out r,
    enum_main J Rec expand written unrun shuffle d 0 fuel k inputs [] out = Some r -> exists nodes, forest inputs nodes.
  Proof.
    induction inputs as [|j inputs IH]; intros fuel k out r E; [exists []; constructor|].
    cbn [enum_main] in E. unfold continue_enum in E. simpl (if Nat.eqb 0 0 then _ else _) in E. cbn [app] in E.
    destruct (enum_loop J Rec expand written shuffle d None fuel k [j] out) as [((k' & q') & out')|] eqn:El; [|discriminate].
    destruct (loop_finite _ _ _ _ _ _ El) as (nodes & F).
    destruct (loop_all d nodes [j] (length nodes) k out F (le_n _)) as (o & Eo & _).
    assert (q' = []) as ->.
    { assert (Hmono : forall f1 q k out r f2, enum_loop J Rec expand written shuffle d None f1 k q out = Some r -> f1 <= f2 ->
        enum_loop J Rec expand written shuffle d None f2 k q out = Some r).
      { clear. induction f1 as [|f1 IH]; destruct f2 as [|f2]; simpl; intros E Hle; auto;
          destruct (pop_job J d q) as [(j & q')|]; auto; try discriminate; try lia. apply IH; auto. lia. }
      pose proof (Hmono _ _ _ _ _ (Nat.max fuel (length nodes)) El ltac:(lia)) as X1.
      pose proof (Hmono _ _ _ _ _ (Nat.max fuel (length nodes)) Eo ltac:(lia)) as X2. congruence. }
    destruct (IH _ _ _ _ E) as (rest & Fr). inversion F as [|? ? a b Fa Fb]; subst.
    exists (j :: a ++ rest). constructor; auto.
  Qed.

  (** with a limit *)
  Lemma loop_limit d N : forall fuel q k out, N - k <= fuel ->
    exists ran left, enum_loop J Rec expand written shuffle d (Some N) fuel k q out = Some (k + length ran, left, out ++ map written ran) /\
      Permutation (q ++ concat (map expand ran)) (ran ++ left) /\
      (k <= N -> k + length ran <= N) /\ (N <= k -> ran = []) /\ (left <> [] -> N <= k + length ran) /\
      (forall nodes, forest q nodes -> exists rest, forest left rest /\ Permutation nodes (ran ++ rest)).
  Proof.
    induction fuel as [|fuel IH]; simpl; intros q k out Hf.
    - replace (Nat.leb N k) with true by (symmetry; apply Nat.leb_le; lia).
      exists [], q. simpl. rewrite Nat.add_0_r, !app_nil_r. repeat split; eauto. lia.
    - destruct (Nat.leb_spec N k) as [Hle|Hlt].
      + exists [], q. simpl. rewrite Nat.add_0_r, !app_nil_r. repeat split; eauto.
      + pose proof (pop_perm d q) as P. destruct (pop_job J d q) as [(j & q')|].
        2:{ subst q. exists [], []. simpl. rewrite Nat.add_0_r, app_nil_r. repeat split; eauto. intros H. now elim H. }
        destruct (IH (q' ++ shuffle k (expand j)) (S k) (out ++ [written j]) ltac:(lia)) as (ran & left & E & Pm & H1 & H2 & H3 & H4).
        exists (j :: ran), left. rewrite E. simpl. split; [do 2 f_equal; [f_equal; lia|now rewrite <- app_assoc]|].
        split; [|split; [lia|split; [lia|split; [intros H; specialize (H3 H); lia|]]]].
        2:{ intros nodes F. destruct (forest_perm expand _ _ P _ F) as (b & Fb & Pb). inversion Fb as [|? ? a1 a2 F1 F2]; subst.
            destruct (forest_perm expand _ _ (Permutation_sym (Hshuffle k (expand j))) _ F1) as (a1' & F1' & P1).
            destruct (H4 _ (forest_app expand _ _ _ _ F2 F1')) as (rest & Fr & Pr). exists rest. split; auto.
            rewrite Pb. constructor. rewrite <- Pr, P1. apply Permutation_app_comm. }
        rewrite P. simpl. constructor. rewrite <- Pm, <- app_assoc. apply Permutation_app_head.
        apply Permutation_app_tail. symmetry. apply Hshuffle.
  Qed.

  Lemma drain_all d : forall fuel q k out, length q <= fuel ->
    exists order, drain J Rec unrun d fuel k q out = (k + length q, out ++ map unrun order) /\ Permutation order q.
  Proof.
    induction fuel as [|fuel IH]; simpl; intros q k out Hf.
    - destruct q; [|simpl in Hf; lia]. exists []. simpl. rewrite app_nil_r, Nat.add_0_r. auto.
    - pose proof (pop_perm d q) as P. destruct (pop_job J d q) as [(j & q')|].
      + pose proof (Permutation_length P) as Hl. simpl in Hl.
        destruct (IH q' (S k) (out ++ [unrun j]) ltac:(lia)) as (order & E & P').
        exists (j :: order). rewrite E. split; [f_equal; [lia|simpl; now rewrite <- app_assoc]|].
        rewrite P. constructor. exact P'.
      + subst q. exists []. simpl. rewrite app_nil_r, Nat.add_0_r. auto.
  Qed.

  Lemma main_limit d N (HN : 0 < N) : forall inputs fuel k out, N <= fuel ->
    exists ran left out', enum_main J Rec expand written unrun shuffle d N fuel k inputs [] out
        = Some (k + length ran + length left, [], out ++ out') /\
      Permutation (inputs ++ concat (map expand ran)) (ran ++ left) /\
      Permutation out' (map written ran ++ map unrun left) /\
      (k <= N -> k + length ran <= N) /\ (N <= k -> ran = []) /\ (left <> [] -> N <= k + length ran) /\
      (forall nodes, forest inputs nodes -> exists rest, forest left rest /\ Permutation nodes (ran ++ rest)).
  Proof.
    induction inputs as [|j inputs IH]; intros fuel k out Hf.
    - exists [], [], []. simpl. rewrite !Nat.add_0_r, app_nil_r. repeat split; eauto. intros H. now elim H.
    - cbn [enum_main]. unfold continue_enum. destruct N as [|N']; [lia|]. set (N := S N') in *. cbn [Nat.eqb].
      change (if Nat.eqb N 0 then None else Some N) with (Some N). cbn [app].
      destruct (loop_limit d N fuel [j] k out ltac:(lia)) as (ran1 & left1 & E1 & P1 & A1 & B1 & C1 & D1). rewrite E1.
      destruct (drain_all d (length left1) left1 (k + length ran1) (out ++ map written ran1) (le_n _)) as (order & E2 & P2).
      rewrite E2.
      destruct (IH fuel (k + length ran1 + length left1) ((out ++ map written ran1) ++ map unrun order) Hf)
        as (ran & left & out' & E3 & P3 & Q3 & A3 & B3 & C3 & D3).
      exists (ran1 ++ ran), (left1 ++ left), (map written ran1 ++ map unrun order ++ out'). rewrite E3.
      split. { rewrite !app_length, !app_assoc. do 3 f_equal. lia. }
      split.
      { rewrite map_app, concat_app. transitivity (([j] ++ concat (map expand ran1)) ++ (inputs ++ concat (map expand ran))).
        - simpl. constructor. rewrite !app_assoc. apply Permutation_app_tail. apply Permutation_app_comm.
        - rewrite P1, P3, <- !app_assoc. apply Permutation_app_head.
          rewrite !app_assoc. apply Permutation_app_tail, Permutation_app_comm. }
      split.
      { rewrite Q3, !map_app, (Permutation_map unrun P2), <- !app_assoc. apply Permutation_app_head.
        rewrite !app_assoc. apply Permutation_app_tail, Permutation_app_comm. }
      assert (Hran : left1 <> [] -> ran = []).
      { intros H. apply B3. specialize (C1 H). lia. }
      rewrite app_length. split; [|split; [|split]].
      4:{ intros nodes F. inversion F as [|? ? a b Fa Fb]; subst.
          assert (Fj : forest [j] (j :: a)) by (rewrite <- (app_nil_r a); constructor; auto; constructor).
          destruct (D1 _ Fj) as (r1 & G1 & R1). destruct (D3 _ Fb) as (r3 & G3 & R3).
          exists (r1 ++ r3). split; [now apply forest_app|].
          transitivity ((j :: a) ++ b); [reflexivity|]. rewrite R1, R3, <- !app_assoc. apply Permutation_app_head.
          rewrite !app_assoc. apply Permutation_app_tail, Permutation_app_comm. }
      + intros Hk. specialize (A1 Hk). destruct left1 as [|x left1].
        * simpl in A3. rewrite Nat.add_0_r in A3. specialize (A3 A1). lia.
        * rewrite (Hran ltac:(discriminate)). simpl. lia.
      + intros Hk. rewrite (B1 Hk), B3 by lia. reflexivity.
      + intros H. destruct left1 as [|x left1].
        * simpl in H, C3. specialize (C3 H). lia.
        * specialize (C1 ltac:(discriminate)). lia.
  Qed.

End Queue.
