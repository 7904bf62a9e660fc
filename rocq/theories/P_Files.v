(** * Proofs about record files, big integers, the bbchallenge database and the meaning of texts *)
Require Import ZArith List Lia Bool Arith Ascii.
From Verif Require Import Spec_TM M_Turing_Machine P_Stream P_Macro P_Quint M_IO P_IO P_Formats.
Import ListNotations.
Open Scope Z_scope.

(** ** Record files *)

Lemma unpack_pack_len n l : pack_len n = Some l -> length l = 4%nat /\ unpack_len l = Some n.
Proof.
  unfold pack_len. destruct ((0 <=? n) && (n <? 4294967296))%bool eqn:E; [|discriminate].
  apply andb_true_iff in E. destruct E as (E1 & E2). apply Z.leb_le in E1. apply Z.ltb_lt in E2.
  intros [= <-]. split; auto. unfold unpack_len. f_equal.
  pose proof (Z.div_mod n 256 ltac:(lia)). pose proof (Z.div_mod (n / 256) 256 ltac:(lia)).
  pose proof (Z.div_mod (n / 65536) 256 ltac:(lia)). pose proof (Z.div_mod (n / 16777216) 256 ltac:(lia)).
  assert (E1' : n / 256 / 256 = n / 65536) by (rewrite Z.div_div by lia; f_equal).
  assert (E2' : n / 65536 / 256 = n / 16777216) by (rewrite Z.div_div by lia; f_equal).
  assert (E3 : n / 16777216 / 256 = 0).
  { rewrite Z.div_div by lia. apply Z.div_small. lia. }
  lia.
Qed.

Lemma skipn_skipn_add {A} a b (l : list A) : skipn b (skipn a l) = skipn (a + b) l.
Proof. revert l. induction a as [|a IH]; intros l; simpl; auto. destruct l; auto. apply skipn_nil. Qed.

Lemma fread_app k data pos a rest : skipn pos data = a ++ rest -> length a = k ->
  fread k (File data pos) = (a, File data (pos + k)) /\ skipn (pos + k) data = rest.
Proof.
  intros E Hk. unfold fread. cbn [f_pos f_data]. rewrite E, <- Hk.
  rewrite firstn_app, firstn_all, Nat.sub_diag. cbn [firstn]. rewrite app_nil_r. split; auto.
  rewrite <- skipn_skipn_add, E, skipn_app, skipn_all, Nat.sub_diag. reflexivity.
Qed.

Lemma fread_short k data pos : (length (skipn pos data) < k)%nat ->
  fread k (File data pos) = (skipn pos data, File data (pos + length (skipn pos data))).
Proof. intros H. unfold fread. cbn [f_pos f_data]. rewrite firstn_all2 by lia. reflexivity. Qed.

Lemma read_record_ok r w data pos rest :
  write_record r = Some w -> skipn pos data = w ++ rest ->
  read_record (File data pos) = (Got r, File data (pos + length w)) /\ skip_record (File data pos) = (Got tt, File data (pos + length w)) /\
  skipn (pos + length w) data = rest.
Proof.
  intros Hw E. unfold write_record in Hw. destruct (pack_len (Z.of_nat (length r))) as [lb|] eqn:El; [|discriminate].
  injection Hw as <-. destruct (unpack_pack_len _ _ El) as (H4 & Hu). rewrite <- app_assoc in E.
  destruct (fread_app 4 _ _ _ _ E H4) as (R1 & E1).
  destruct (fread_app (length r) _ _ _ _ E1 eq_refl) as (R2 & E2).
  rewrite app_length, H4. replace (pos + (4 + length r))%nat with (pos + 4 + length r)%nat by lia. split; [|split]; auto.
  - unfold read_record, read_message_len. rewrite R1. destruct lb as [|b lb]; [discriminate|]. rewrite Hu. cbv iota beta.
    rewrite Nat2Z.id, R2, Nat.eqb_refl. reflexivity.
  - unfold skip_record, read_message_len. rewrite R1. destruct lb as [|b lb]; [discriminate|]. rewrite Hu. cbv iota beta.
    rewrite Nat2Z.id. reflexivity.
Qed.

(** at a place where only a strict part of a record is left *)
Lemma read_record_cut r w data pos k :
  write_record r = Some w -> skipn pos data = firstn k w -> (k < length w)%nat ->
  fst (read_record (File data pos)) = (if Nat.eqb k 0 then Eof else Broken) /\
  match skip_record (File data pos) with
  | (Got _, f) | (Eof, f) => f_data f = data /\ (length data <= f_pos f)%nat
  | (Broken, _) => True
  end.
Proof.
  intros Hw E Hk. unfold write_record in Hw. destruct (pack_len (Z.of_nat (length r))) as [lb|] eqn:El; [|discriminate].
  injection Hw as <-. destruct (unpack_pack_len _ _ El) as (H4 & Hu). rewrite app_length, H4 in Hk.
  assert (Hpos : length (skipn pos data) = k) by (rewrite E, firstn_length, app_length; lia).
  assert (Hend : length data = (length (skipn pos data) + Nat.min pos (length data))%nat).
  { rewrite skipn_length. lia. }
  destruct (Nat.le_gt_cases 4 k) as [H|H].
  - replace (Nat.eqb k 0) with false by (symmetry; apply Nat.eqb_neq; lia).
    rewrite firstn_app, firstn_all2 in E by lia. destruct (fread_app 4 _ _ _ _ E H4) as (R1 & E1).
    unfold read_record, skip_record, read_message_len. rewrite R1. destruct lb as [|b lb]; [discriminate|]. rewrite Hu. cbv iota beta.
    rewrite Nat2Z.id. split.
    + assert (Hl : (length (skipn (pos + 4) data) < length r)%nat) by (rewrite E1, firstn_length; lia).
      rewrite (fread_short _ _ _ Hl).
      replace (Nat.eqb (length (skipn (pos + 4) data)) (length r)) with false by (symmetry; apply Nat.eqb_neq; lia). reflexivity.
    + cbn [fseek f_data f_pos]. split; auto. lia.
  - unfold read_record, skip_record, read_message_len. rewrite fread_short by lia.
    destruct (skipn pos data) as [|b [|b1 [|b2 [|b3 [|b4 l]]]]] eqn:Es; cbn [length] in Hpos, Hend; try lia; subst k;
      cbn [Nat.eqb unpack_len]; split; auto.
    cbn [f_data f_pos length]. split; auto. lia.
Qed.

Lemma write_length r w : write_record r = Some w -> (4 <= length w)%nat.
Proof.
  unfold write_record. destruct (pack_len _) as [lb|] eqn:E; [|discriminate]. intros [= <-].
  destruct (unpack_pack_len _ _ E) as (H & _). rewrite app_length. lia.
Qed.

(** reading from a place where [ws] and then a part of another record is left *)
Lemma read_all_prefix : forall recs ws data pos fuel tail ans,
  otraverse (map write_record recs) = Some ws -> skipn pos data = concat ws ++ tail -> (length recs < fuel)%nat ->
  (forall pos', skipn pos' data = tail -> fst (read_record (File data pos')) = ans) -> (forall r, ans <> Got r) ->
  read_all fuel (File data pos) = (recs, match ans with Eof => true | _ => false end).
Proof.
  induction recs as [|r recs IH]; intros ws data pos fuel tail ans Hw E Hf Hans Hng; (destruct fuel as [|fuel]; [lia|]); cbn [read_all].
  - injection Hw as <-. specialize (Hans pos E). destruct (read_record (File data pos)) as [a f]. simpl in Hans. subst a.
    destruct ans as [| |a]; auto. now destruct (Hng a).
  - simpl in Hw. destruct (write_record r) as [w|] eqn:Ew; [|discriminate].
    destruct (otraverse (map write_record recs)) as [ws'|] eqn:Ews; [|discriminate]. injection Hw as <-. cbn [concat] in E.
    rewrite <- app_assoc in E. destruct (read_record_ok _ _ _ _ _ Ew E) as (-> & _ & E').
    rewrite (IH ws' data _ fuel tail ans); auto. simpl in Hf. lia.
Qed.

(** a cut of the written bytes falls on a boundary or inside one record *)
Lemma cut_split : forall recs ws k, otraverse (map write_record recs) = Some ws -> (k <= length (concat ws))%nat ->
  (exists j ws', (j <= length recs)%nat /\ otraverse (map write_record (firstn j recs)) = Some ws' /\ firstn k (concat ws) = concat ws') \/
  (exists j ws' r w k', nth_error recs j = Some r /\ write_record r = Some w /\ (0 < k' < length w)%nat /\
     otraverse (map write_record (firstn j recs)) = Some ws' /\ firstn k (concat ws) = concat ws' ++ firstn k' w).
Proof.
  induction recs as [|r recs IH]; intros ws k Hw Hk.
  - injection Hw as <-. left. exists 0%nat, []. simpl. rewrite firstn_nil. auto.
  - simpl in Hw. destruct (write_record r) as [w|] eqn:Ew; [|discriminate].
    destruct (otraverse (map write_record recs)) as [ws0|] eqn:Ews; [|discriminate]. injection Hw as <-. cbn [concat] in *.
    rewrite app_length in Hk. destruct (Nat.le_gt_cases (length w) k) as [H|H].
    + rewrite firstn_app, firstn_all2 by lia.
      destruct (IH ws0 (k - length w)%nat eq_refl) as [(j & ws' & Hj & Hws & E)|(j & ws' & r' & w' & k' & Hj & Hw' & Hk' & Hws & E)]; [lia| |].
      * left. exists (S j), (w :: ws'). simpl. rewrite Ew, Hws, E. repeat split; auto. lia.
      * right. exists (S j), (w :: ws'), r', w', k'. simpl. rewrite Ew, Hws, E. rewrite app_assoc. auto.
    + destruct (Nat.eq_dec k 0) as [->|Hk0].
      * left. exists 0%nat, []. simpl. repeat split; auto. lia.
      * right. exists 0%nat, [], r, w, k. simpl. repeat split; auto; try lia.
        rewrite firstn_app. replace (k - length w)%nat with 0%nat by lia. cbn [firstn]. now rewrite app_nil_r.
Qed.

Lemma records_length recs ws : otraverse (map write_record recs) = Some ws -> (4 * length recs <= length (concat ws))%nat.
Proof.
  revert ws. induction recs as [|r recs IH]; intros ws H; [injection H as <-; simpl; lia|].
  simpl in H. destruct (write_record r) as [w|] eqn:Ew; [|discriminate].
  destruct (otraverse (map write_record recs)) as [ws0|]; [|discriminate]. injection H as <-. cbn [concat]. rewrite app_length.
  specialize (IH ws0 eq_refl). pose proof (write_length _ _ Ew). simpl length. lia.
Qed.

Lemma eof_at_end data pos : skipn pos data = [] -> fst (read_record (File data pos)) = Eof /\
  exists f, skip_record (File data pos) = (Eof, f) /\ f_data f = data /\ f_pos f = pos.
Proof.
  intros E. unfold read_record, skip_record, read_message_len. rewrite fread_short by (rewrite E; simpl; lia). rewrite E. split; auto.
  eexists. split; [reflexivity|]. simpl. split; auto.
Qed.

(** skipping at or behind the end goes nowhere, and nothing is read there *)
Lemma skip_behind k : forall f, (length (f_data f) <= f_pos f)%nat ->
  match skip_records k f with Some f' => fst (read_record f') = Eof | None => False end.
Proof.
  induction k as [|k IH]; intros [data pos] H; cbn [skip_records f_data f_pos] in *.
  - apply eof_at_end. now apply skipn_all2.
  - destruct (eof_at_end data pos) as (_ & f & -> & H1 & H2); [now apply skipn_all2|]. apply IH. rewrite H1, H2. auto.
Qed.

Lemma load_prefix : forall recs ws data pos tail n,
  otraverse (map write_record recs) = Some ws -> skipn pos data = concat ws ++ tail -> (length recs <= n)%nat ->
  exists pos', skip_records (length recs) (File data pos) = Some (File data pos') /\ skipn pos' data = tail /\
    skip_records n (File data pos) = skip_records (n - length recs) (File data pos').
Proof.
  induction recs as [|r recs IH]; intros ws data pos tail n Hw E Hn.
  - injection Hw as <-. exists pos. cbn [length skip_records]. rewrite Nat.sub_0_r. auto.
  - simpl in Hw. destruct (write_record r) as [w|] eqn:Ew; [|discriminate].
    destruct (otraverse (map write_record recs)) as [ws0|] eqn:Ews; [|discriminate]. injection Hw as <-. cbn [concat] in E.
    rewrite <- app_assoc in E. destruct (read_record_ok _ _ _ _ _ Ew E) as (_ & Es & E').
    destruct n as [|n]; [simpl in Hn; lia|]. destruct (IH ws0 data _ tail n eq_refl E') as (pos' & H1 & H2 & H3); [simpl in Hn; lia|].
    exists pos'. cbn [length skip_records]. rewrite Es. auto.
Qed.

Lemma firstn_split {A} (l : list A) n a : nth_error l n = Some a -> l = firstn n l ++ a :: skipn (S n) l.
Proof. revert n. induction l as [|b l IH]; intros [|n] H; simpl in *; try discriminate; [congruence|]. f_equal. auto. Qed.

Lemma otraverse_split {A} (x y : list (option A)) r : otraverse (x ++ y) = Some r ->
  exists a b, otraverse x = Some a /\ otraverse y = Some b /\ r = a ++ b.
Proof.
  revert r. induction x as [|[c|] x IH]; simpl; intros r H; try discriminate; [exists [], r; auto|].
  destruct (otraverse (x ++ y)) as [r'|]; [|discriminate]. injection H as <-.
  destruct (IH r' eq_refl) as (a & b & -> & -> & ->). exists (c :: a), b. auto.
Qed.

(** the record [n] of the first whole records is loaded *)
Lemma load_in recs ws tail n r :
  otraverse (map write_record recs) = Some ws -> nth_error recs n = Some r -> load_record (concat ws ++ tail) n = Some r.
Proof.
  intros Hw Hn. pose proof (firstn_split _ _ _ Hn) as Hs. rewrite Hs, map_app in Hw.
  destruct (otraverse_split _ _ _ Hw) as (a & b & Ha & Hb & ->). cbn [map otraverse] in Hb.
  destruct (write_record r) as [w|] eqn:Ew; [|discriminate].
  destruct (otraverse (map write_record (skipn (S n) recs))) as [b'|]; [|discriminate]. injection Hb as <-.
  assert (Hlen : length (firstn n recs) = n).
  { apply firstn_length_le. apply Nat.lt_le_incl. apply nth_error_Some. congruence. }
  unfold load_record. set (data := concat (a ++ w :: b') ++ tail).
  assert (E0 : skipn 0 data = concat a ++ (w ++ (concat b' ++ tail))).
  { unfold data. rewrite concat_app. cbn [concat skipn]. now rewrite <- !app_assoc. }
  destruct (load_prefix _ _ _ _ _ n Ha E0) as (pos' & H1 & H2 & H3); [lia|].
  rewrite Hlen in H1. rewrite H1. destruct (read_record_ok _ _ _ _ _ Ew H2) as (-> & _). reflexivity.
Qed.

Theorem read_file_full recs data : write_records recs = Some data -> read_file data = (recs, true).
Proof.
  unfold write_records. intros H. destruct (otraverse (map write_record recs)) as [ws|] eqn:E; [|discriminate]. injection H as <-.
  unfold read_file. pose proof (records_length _ _ E).
  rewrite (read_all_prefix recs ws (concat ws) 0 _ [] Eof); auto; try discriminate.
  - now rewrite app_nil_r.
  - lia.
  - intros pos' Hp. apply eof_at_end. exact Hp.
Qed.

Theorem read_file_cut recs data k : write_records recs = Some data -> (k <= length data)%nat ->
  exists j b, (j <= length recs)%nat /\ read_file (firstn k data) = (firstn j recs, b) /\
    (b = true <-> write_records (firstn j recs) = Some (firstn k data)).
Proof.
  unfold write_records. intros H Hk. destruct (otraverse (map write_record recs)) as [ws|] eqn:E; [|discriminate]. injection H as <-.
  destruct (cut_split _ _ _ E Hk) as [(j & ws' & Hj & Hw & Ec)|(j & ws' & r & w & k' & Hj & Hr & Hk' & Hw & Ec)].
  - exists j, true. split; auto. rewrite Hw, Ec. split.
    + apply read_file_full. unfold write_records. rewrite Hw. reflexivity.
    + split; auto.
  - exists j, false.
    assert (Hjl : (j < length recs)%nat) by (apply nth_error_Some; congruence). split; [lia|]. rewrite Hw, Ec. split.
    + unfold read_file. pose proof (records_length _ _ Hw) as Hl.
      rewrite (read_all_prefix (firstn j recs) ws' (concat ws' ++ firstn k' w) 0 _ (firstn k' w) Broken); auto; try discriminate.
      * rewrite app_length. lia.
      * intros pos' Hp. destruct (read_record_cut r w _ pos' k' Hr Hp) as (Hc & _); [lia|]. rewrite Hc.
        destruct (Nat.eqb_spec k' 0); auto. lia.
    + split; [discriminate|]. simpl. intros H. injection H as H. exfalso.
      apply (f_equal (@length _)) in H. rewrite app_length, firstn_length in H. lia.
Qed.

Theorem load_full recs data n : write_records recs = Some data -> load_record data n = nth_error recs n.
Proof.
  unfold write_records. intros H. destruct (otraverse (map write_record recs)) as [ws|] eqn:E; [|discriminate]. injection H as <-.
  destruct (nth_error recs n) as [r|] eqn:Er.
  - rewrite <- (app_nil_r (concat ws)). eapply load_in; eauto.
  - apply nth_error_None in Er. unfold load_record.
    destruct (load_prefix recs ws (concat ws) 0 [] n E) as (pos' & _ & H2 & H3); auto; [now rewrite app_nil_r|].
    rewrite H3. pose proof (skip_behind (n - length recs) (File (concat ws) pos')) as Hs. cbn [f_data f_pos] in Hs.
    assert (Hp : (length (concat ws) <= pos')%nat).
    { apply (f_equal (@length _)) in H2. rewrite skipn_length in H2. simpl in H2. lia. }
    specialize (Hs Hp). destruct (skip_records (n - length recs) (File (concat ws) pos')) as [f|]; auto. destruct (read_record f) as [a f']. cbn [fst] in Hs. subst a. auto.
Qed.

(** a file that was cut never yields a wrong record *)
Theorem load_cut recs data k n r :
  write_records recs = Some data -> (k <= length data)%nat -> load_record (firstn k data) n = Some r -> nth_error recs n = Some r.
Proof.
  intros H Hk Hload. pose proof H as H0. unfold write_records in H. destruct (otraverse (map write_record recs)) as [ws|] eqn:E; [|discriminate]. injection H as <-.
  assert (Hfn : forall j x, nth_error (firstn j recs) n = Some x -> nth_error recs n = Some x).
  { intros j x Hx. assert (Hnj : (n < length (firstn j recs))%nat) by (apply nth_error_Some; congruence).
    rewrite <- (firstn_skipn j recs). rewrite nth_error_app1; auto. }
  destruct (cut_split _ _ _ E Hk) as [(j & ws' & Hj & Hw & Ec)|(j & ws' & r' & w & k' & Hj & Hr & Hk' & Hw & Ec)].
  - rewrite Ec in Hload. rewrite (load_full (firstn j recs)) in Hload by (unfold write_records; now rewrite Hw). eauto.
  - rewrite Ec in Hload. destruct (nth_error (firstn j recs) n) as [x|] eqn:Ex.
    + rewrite (load_in _ _ _ _ _ Hw Ex) in Hload. injection Hload as <-. eauto.
    + exfalso. apply nth_error_None in Ex. unfold load_record in Hload.
      destruct (load_prefix (firstn j recs) ws' (concat ws' ++ firstn k' w) 0 (firstn k' w) n Hw) as (pos' & _ & H2 & H3); auto.
      rewrite H3 in Hload. destruct (read_record_cut r' w _ pos' k' Hr H2) as (Hc & Hs); [lia|].
      destruct (n - length (firstn j recs))%nat as [|i].
      * cbn [skip_records] in Hload. destruct (read_record _) as [a f]. cbn [fst] in Hc. subst a. destruct (Nat.eqb k' 0); discriminate.
      * cbn [skip_records] in Hload. destruct (skip_record _) as [[| |u] f].
        -- destruct Hs as (Hd & Hp). pose proof (skip_behind i f) as Hb. rewrite Hd in Hb. specialize (Hb Hp).
           destruct (skip_records i f) as [f'|]; [|discriminate]. destruct (read_record f') as [a f'']. cbn [fst] in Hb. subst a. discriminate.
        -- discriminate.
        -- destruct Hs as (Hd & Hp). pose proof (skip_behind i f) as Hb. rewrite Hd in Hb. specialize (Hb Hp).
           destruct (skip_records i f) as [f'|]; [|discriminate]. destruct (read_record f') as [a f'']. cbn [fst] in Hb. subst a. discriminate.
Qed.

(** ** Big integers *)

Lemma hex_digit_value k : 0 <= k < 16 -> hex_value (hex_digit k) = Some k.
Proof.
  intros H. assert (Hc : k = Z.of_nat (Z.to_nat k)) by lia. set (n := Z.to_nat k) in *. assert (Hn : (n < 16)%nat) by lia.
  rewrite Hc. clearbody n. clear -Hn. do 16 (destruct n as [|n]; [reflexivity|]). lia.
Qed.

Lemma hex_fold_app x y acc : hex_fold (x ++ y) acc = match hex_fold x acc with Some v => hex_fold y v | None => None end.
Proof. revert acc. induction x as [|c x IH]; simpl; intros acc; auto. destruct (hex_value c); auto. Qed.

Lemma hex_digits_value fuel : forall v, 0 <= v < 16 ^ Z.of_nat fuel -> hex_fold (hex_digits fuel v) 0 = Some v.
Proof.
  induction fuel as [|fuel IH]; intros v Hv.
  - simpl in Hv. assert (v = 0) by lia. subst. reflexivity.
  - assert (Hl : forall q, hex_fold [hex_digit (v mod 16)] q = Some (16 * q + v mod 16)).
    { intros q. cbn [hex_fold]. now rewrite hex_digit_value by (apply Z.mod_pos_bound; lia). }
    pose proof (Z.div_mod v 16 ltac:(lia)) as Hdm. cbn [hex_digits]. destruct (Z.ltb_spec v 16).
    + rewrite hex_fold_app. cbn [hex_fold]. change (match hex_value (hex_digit (v mod 16)) with Some k => Some (16 * 0 + k) | None => None end) with (hex_fold [hex_digit (v mod 16)] 0).
      rewrite Hl. f_equal. rewrite Z.mod_small by lia. lia.
    + rewrite hex_fold_app, IH.
      * rewrite Hl. f_equal. lia.
      * split; [apply Z.div_pos; lia|]. apply Z.div_lt_upper_bound; [lia|].
        rewrite Nat2Z.inj_succ, Z.pow_succ_r in Hv by lia. lia.
Qed.

Lemma hex_digits_nonempty fuel v : hex_digits (S fuel) v <> [].
Proof. cbn [hex_digits]. destruct (v <? 16); [discriminate|]. intros H. apply app_eq_nil in H. destruct H. discriminate. Qed.

Lemma int16_pos l : l <> [] -> int16 ("0"%char :: "x"%char :: l) = option_map (fun v => v) (hex_fold l 0).
Proof. destruct l; [congruence|]. reflexivity. Qed.
Lemma int16_neg l : l <> [] -> int16 ("-"%char :: "0"%char :: "x"%char :: l) = option_map Z.opp (hex_fold l 0).
Proof. destruct l; [congruence|]. reflexivity. Qed.

Theorem int16_hex v : int16 (hex v) = Some v.
Proof.
  unfold hex. set (fuel := Z.to_nat (Z.log2 (Z.abs v))).
  assert (Hd : hex_fold (hex_digits (S fuel) (Z.abs v)) 0 = Some (Z.abs v)).
  { apply hex_digits_value. split; [lia|]. unfold fuel. rewrite Nat2Z.inj_succ, Z2Nat.id by apply Z.log2_nonneg.
    destruct (Z.eq_dec (Z.abs v) 0) as [E|E].
    - rewrite E. apply Z.pow_pos_nonneg; [lia|]. pose proof (Z.log2_nonneg 0). lia.
    - destruct (Z.log2_spec (Z.abs v) ltac:(lia)) as (_ & H). eapply Z.lt_le_trans; [exact H|].
      apply Z.pow_le_mono_l. lia. }
  pose proof (hex_digits_nonempty fuel (Z.abs v)) as Hne.
  destruct (Z.ltb_spec v 0).
  - rewrite int16_neg, Hd by exact Hne. cbn [option_map]. f_equal. lia.
  - rewrite int16_pos, Hd by exact Hne. cbn [option_map]. f_equal. lia.
Qed.

(** ** The bbchallenge database *)

(** an entry names a machine: directions 0 and 1, symbols 0 and 1, states up to 5; an undefined
    cell is symbol 0 and state 0 *)
Definition bbc_cell_ok (s d q : Z) : Prop := (d = 0 \/ d = 1) /\ ((q = 0 /\ s = 0) \/ (s <= 1 /\ q <= 5)).
Definition bbc_action (s d q : Z) : action :=
  if ((q =? 0) && (s =? 0))%bool then Stop 1 R false
  else if q =? 0 then Stop (Z.to_nat s) (if d =? 0 then R else L) true
  else Go (Z.to_nat s) (if d =? 0 then R else L) (Z.to_nat (q - 1)).

Definition byte_at (data : list Z) (k : nat) : Z := nth k data 0.

Lemma firstn3_bytes (l : list Z) k : (k + 3 <= length l)%nat -> firstn 3 (skipn k l) = [byte_at l k; byte_at l (k + 1); byte_at l (k + 2)].
Proof.
  revert k. induction l as [|a l IH]; intros k H; [simpl in H; lia|]. destruct k as [|k].
  - destruct l as [|b [|c l]]; simpl in H; try lia. reflexivity.
  - cbn [skipn]. rewrite IH by (simpl in H; lia). reflexivity.
Qed.

Section Bbc.
  Variable b : list Z.                       (* one entry *)
  Hypothesis Hlen : length b = 30%nat.
  Hypothesis Hb : forall k, (k < 30)%nat -> 0 <= byte_at b k < 256.

  Definition bs (i j : nat) := byte_at b (3 * (2 * i + j)).
  Definition bd (i j : nat) := byte_at b (3 * (2 * i + j) + 1).
  Definition bq (i j : nat) := byte_at b (3 * (2 * i + j) + 2).

  Definition bbc_quint_of (i j : nat) : quint :=
    if ((bq i j =? 0) && (bs i j =? 0))%bool then Quint i j None R SHalt
    else Quint i j (Some (Z.to_nat (bs i j))) (if bd i j =? 0 then R else L) (state_of (bq i j - 1)).

  Lemma bbc_quint_eq i j : (i < 5)%nat -> (j < 2)%nat ->
    bbc_quint b (i, j) = if ((bd i j =? 0) || (bd i j =? 1))%bool then Some (bbc_quint_of i j) else None.
  Proof.
    intros Hi Hj. unfold bbc_quint, bbc_quint_of. cbn [fst snd]. rewrite firstn3_bytes by lia. fold (bs i j) (bd i j) (bq i j).
    unfold bbc_trans. replace (bq i j - 1 =? -1) with (bq i j =? 0) by (destruct (Z.eqb_spec (bq i j) 0), (Z.eqb_spec (bq i j - 1) (-1)); auto; lia).
    destruct (Z.eqb_spec (bd i j) 0) as [E|E]; simpl orb.
    - destruct ((bq i j =? 0) && (bs i j =? 0))%bool; reflexivity.
    - destruct (Z.eqb_spec (bd i j) 1); [|reflexivity]. destruct ((bq i j =? 0) && (bs i j =? 0))%bool; reflexivity.
  Qed.

  Definition bbc_quints : list quint := map (fun a => bbc_quint_of (fst a) (snd a)) (list_prod (seq 0 5) (seq 0 2)).

  Lemma quint_of_range i j : (i < 5)%nat -> (j < 2)%nat ->
    (row_in_range 5 2 (bbc_quint_of i j) <-> ((bq i j = 0 /\ bs i j = 0) \/ (bs i j <= 1 /\ bq i j <= 5))).
  Proof.
    intros Hi Hj. assert (Hs := Hb (3 * (2 * i + j)) ltac:(lia)). assert (Hq := Hb (3 * (2 * i + j) + 2) ltac:(lia)).
    fold (bs i j) in Hs. fold (bq i j) in Hq. unfold bbc_quint_of, row_in_range.
    destruct (Z.eqb_spec (bq i j) 0) as [E|E], (Z.eqb_spec (bs i j) 0) as [E'|E']; cbn [andb q_symbol_out q_state_in q_symbol_in q_state_out].
    - tauto.
    - unfold state_of. rewrite E. cbn. split; [intros (_ & _ & H & _); lia|]. intros [H|H]; [lia|]. repeat split; auto; lia.
    - unfold state_of. replace (bq i j - 1 <? 0) with false by (symmetry; apply Z.ltb_ge; lia).
      split; [intros (_ & _ & H & H'); lia|]. intros [H|H]; [lia|]. repeat split; auto; lia.
    - unfold state_of. replace (bq i j - 1 <? 0) with false by (symmetry; apply Z.ltb_ge; lia).
      split; [intros (_ & _ & H & H'); lia|]. intros [H|H]; [lia|]. repeat split; auto; lia.
  Qed.

  Lemma bbc_last i j : (i < 5)%nat -> (j < 2)%nat ->
    last_row bbc_quints i j = if ((bq i j =? 0) && (bs i j =? 0))%bool then None else Some (bbc_quint_of i j).
  Proof.
    intros Hi Hj. destruct (last_row bbc_quints i j) as [q|] eqn:E.
    - apply last_row_spec in E. destruct E as (Hin & Hqi & Hqj & Ho). unfold bbc_quints in Hin. apply in_map_iff in Hin.
      destruct Hin as ([i' j'] & Hq & _). cbn [fst snd] in Hq.
      assert (Hij : i' = i /\ j' = j).
      { subst q. unfold bbc_quint_of in Hqi, Hqj. destruct ((bq i' j' =? 0) && (bs i' j' =? 0))%bool; auto. }
      destruct Hij as (-> & ->). subst q. unfold bbc_quint_of in Ho |- *.
      destruct ((bq i j =? 0) && (bs i j =? 0))%bool; auto. now destruct Ho.
    - destruct ((bq i j =? 0) && (bs i j =? 0))%bool eqn:Eu; auto. exfalso.
      assert (Hin : In (bbc_quint_of i j) (rev bbc_quints)).
      { apply in_rev. rewrite rev_involutive. unfold bbc_quints. apply in_map_iff. exists (i, j). split; auto. apply In_pairs. auto. }
      pose proof (find_none _ _ E _ Hin) as Hn. unfold row_for, bbc_quint_of in Hn. rewrite Eu in Hn. simpl in Hn.
      rewrite !Nat.eqb_refl in Hn. discriminate.
  Qed.

  Theorem bbc_accepts : bbc_unpack_tm b <> None <-> forall i j, (i < 5)%nat -> (j < 2)%nat -> bbc_cell_ok (bs i j) (bd i j) (bq i j).
  Proof.
    unfold bbc_unpack_tm. split.
    - intros H i j Hi Hj. destruct (otraverse _) as [qs|] eqn:E; [|congruence].
      assert (Hd : bd i j = 0 \/ bd i j = 1).
      { destruct (Z.eq_dec (bd i j) 0); auto. destruct (Z.eq_dec (bd i j) 1); auto. exfalso.
        rewrite otraverse_none in E; [discriminate|]. apply in_map_iff. exists (i, j). split; [|apply In_pairs; auto].
        rewrite bbc_quint_eq by auto. destruct (Z.eqb_spec (bd i j) 0), (Z.eqb_spec (bd i j) 1); auto; lia. }
      split; auto. apply (quint_of_range i j Hi Hj).
      apply (proj1 (quintuples_accepts _ _ _)) in H. rewrite Forall_forall in H. apply H. apply (otraverse_In _ _ _ E).
      apply in_map_iff. exists (i, j). split; [|apply In_pairs; auto]. rewrite bbc_quint_eq by auto.
      replace ((bd i j =? 0) || (bd i j =? 1))%bool with true; auto. destruct Hd as [-> | ->]; reflexivity.
    - intros H. rewrite (otraverse_map _ (fun a => bbc_quint_of (fst a) (snd a))).
      + apply (proj2 (quintuples_accepts _ _ _)). apply Forall_forall. intros q Hq. apply in_map_iff in Hq. destruct Hq as ([i j] & <- & Ha).
        apply In_pairs in Ha. destruct Ha as (Hi & Hj). apply (quint_of_range i j Hi Hj). apply (H i j Hi Hj).
      + intros [i j] Ha. apply In_pairs in Ha. destruct Ha as (Hi & Hj). rewrite bbc_quint_eq by auto. destruct (H i j Hi Hj) as ([Hd|Hd] & _); cbn [fst snd] in *; rewrite Hd; reflexivity.
  Qed.

  Theorem bbc_table tab i j : bbc_unpack_tm b = Some tab -> (i < 5)%nat -> (j < 2)%nat ->
    table_of tab i j = bbc_action (bs i j) (bd i j) (bq i j).
  Proof.
    intros H Hi Hj. pose proof (proj1 bbc_accepts ltac:(congruence)) as Hok. unfold bbc_unpack_tm in H.
    rewrite (otraverse_map _ (fun a => bbc_quint_of (fst a) (snd a))) in H.
    2:{ intros [i' j'] Ha. apply In_pairs in Ha. destruct Ha as (Hi' & Hj'). rewrite bbc_quint_eq by auto. destruct (Hok i' j' Hi' Hj') as ([Hd|Hd] & _); cbn [fst snd] in *; rewrite Hd; reflexivity. }
    fold bbc_quints in H. rewrite (quintuples_table _ _ _ _ i j H Hi Hj), bbc_last by auto. unfold bbc_action, bbc_quint_of.
    destruct ((bq i j =? 0) && (bs i j =? 0))%bool eqn:E; auto. unfold row_action. cbn [q_symbol_out q_state_out q_dir_out].
    unfold state_of. assert (Hq := Hb (3 * (2 * i + j) + 2) ltac:(lia)). fold (bq i j) in Hq.
    destruct (Z.eqb_spec (bq i j) 0) as [E'|E'].
    - rewrite E'. reflexivity.
    - replace (bq i j - 1 <? 0) with false by (symmetry; apply Z.ltb_ge; lia). reflexivity.
  Qed.
End Bbc.

(** ** The meaning of a text *)

(** the cell [j] of the text of a row *)
Definition row_cell (row : str) (j : nat) : option triple :=
  match firstn 3 (skipn (3 * j) row) with [a; b; c] => Some (a, b, c) | _ => None end.
Definition undef_text (t : triple) : Prop := t = ("-", "-", "-")%char.
(** a cell that is a transition: symbol, direction, anything *)
Definition good_text (m : nat) (t : triple) : Prop :=
  let '(a, b, _) := t in exists w d, (w < m)%nat /\ (w < 10)%nat /\ a = digit w /\ b = dir_char d.
Definition text_action (n : nat) (t : triple) (act : action) : Prop :=
  (undef_text t /\ act = Stop 1 R false) \/
  (~ undef_text t /\ let '(a, b, c) := t in exists w d, (w < 10)%nat /\ a = digit w /\ b = dir_char d /\
     ((exists q, (q < n)%nat /\ (q < 26)%nat /\ c = upper q /\ act = Go w d q) \/
      ((forall q, (q < n)%nat -> (q < 26)%nat -> c <> upper q) /\ act = Stop w d true))).

(** the number of symbols of a list of rows: at least one *)
Definition text_symbols (rows : list str) : nat := fold_left (fun k r => Nat.max k (length r / 3)) rows 1%nat.

Lemma parse_trans_spec n i j t l : parse_trans n i j t = Some l ->
  (undef_text t /\ l = []) \/
  (~ undef_text t /\ let '(a, b, c) := t in exists w d q, (w < 10)%nat /\ a = digit w /\ b = dir_char d /\ l = [Quint i j (Some w) d q] /\
     ((exists k, (k < n)%nat /\ (k < 26)%nat /\ c = upper k /\ q = SRun k) \/
      ((forall k, (k < n)%nat -> (k < 26)%nat -> c <> upper k) /\ q = SHalt))).
Proof.
  destruct t as [[a b] c]. unfold parse_trans, undef_text.
  destruct ((Ascii.eqb a "-" && Ascii.eqb b "-" && Ascii.eqb c "-")%bool) eqn:E.
  - intros [= <-]. left. rewrite !andb_true_iff, !Ascii.eqb_eq in E. destruct E as ((-> & ->) & ->). auto.
  - intros H. right. split; [intros [= -> -> ->]; discriminate|].
    destruct (find_digit a) as [w|] eqn:Ea; [|discriminate]. destruct (find_dir b) as [d|] eqn:Eb; [|discriminate]. injection H as <-.
    apply find_digit_spec in Ea. apply find_dir_spec in Eb. destruct Ea as (Hw & ->). subst b.
    destruct (find_upper c) as [k|] eqn:Ec.
    + destruct (Nat.leb_spec n k) as [Hnk|Hnk].
      * exists w, d, SHalt. repeat split; auto. right. split; auto. intros k' H1 H2 ->.
        rewrite (proj2 (find_upper_spec (upper k') k')) in Ec by auto. injection Ec as <-. lia.
      * exists w, d, (SRun k). repeat split; auto. left. exists k. apply find_upper_spec in Ec. tauto.
    + exists w, d, SHalt. repeat split; auto. right. split; auto. intros k' _ H2 ->.
      rewrite (proj2 (find_upper_spec (upper k') k')) in Ec by auto. discriminate.
Qed.

Lemma parse_trans_ok n i j t : undef_text t \/ good_text 10 t -> parse_trans n i j t <> None.
Proof.
  destruct t as [[a b] c]. unfold undef_text, good_text, parse_trans. intros [[= -> -> ->]|(w & d & _ & Hw & -> & ->)]; [discriminate|].
  destruct (_ && _)%bool; [discriminate|]. rewrite (proj2 (find_digit_spec _ w)) by auto. rewrite (proj2 (find_dir_spec _ d)) by auto. discriminate.
Qed.

Section Meaning.
  Variable rows : list str.
  Hypothesis Hne : rows <> [].
  Hypothesis Hchars : forall r c, In r rows -> In c r -> text_char c = true.

  Lemma meaning_split : split_on "_" (strip (join "_" rows)) = rows /\ existsb (Ascii.eqb " ") (join "_" rows) = false.
  Proof.
    assert (Hsp : forall c, In c (join "_" rows) -> is_space c = false).
    { intros c Hc. apply In_join in Hc. destruct Hc as [->|(r & Hr & Hc)]; [reflexivity|]. specialize (Hchars r c Hr Hc).
      unfold text_char in Hchars. destruct (is_space c); auto. }
    split.
    - rewrite strip_id by auto. apply split_join; auto. intros r c Hr Hc. specialize (Hchars r c Hr Hc). unfold text_char in Hchars.
      apply andb_true_iff in Hchars. destruct Hchars as (_ & H). now apply negb_true_iff in H.
    - destruct (existsb _ _) eqn:E; auto. apply existsb_exists in E. destruct E as (c & Hc & E). apply Ascii.eqb_eq in E. subst c.
      apply Hsp in Hc. discriminate.
  Qed.

  Definition text_of_rows (cs : list (list triple)) : list str := map (fun l => concat (map flat l)) cs.

  Lemma chunks_text cs : otraverse (map chunk3 rows) = Some cs -> rows = text_of_rows cs.
  Proof.
    clear. revert cs. induction rows as [|r rows' IH]; simpl; intros cs H; [injection H as <-; reflexivity|].
    destruct (chunk3 r) as [l|] eqn:E; [|discriminate]. destruct (otraverse (map chunk3 rows')) as [cs'|]; [|discriminate].
    injection H as <-. simpl. rewrite <- (IH cs' eq_refl). f_equal. now apply chunk3_spec.
  Qed.

  Lemma symbols_text cs k : fold_left (fun k r => Nat.max k (length r / 3)) (text_of_rows cs) (S k) =
    S (fold_left (fun k (r : list triple) => Nat.max k (length r - 1)) cs k).
  Proof.
    clear. revert k. induction cs as [|l cs IH]; intros k; [reflexivity|]. unfold text_of_rows in *. cbn [map fold_left]. rewrite flat_length.
    replace (3 * length l / 3)%nat with (length l) by (rewrite Nat.mul_comm, Nat.div_mul; lia).
    rewrite <- IH. f_equal. lia.
  Qed.

  Lemma row_cell_chunk cs i j row : rows = text_of_rows cs -> nth_error rows i = Some row -> row_cell row j = cell cs i j.
  Proof.
    clear. intros -> H. unfold text_of_rows in H. rewrite nth_error_map in H. unfold cell. destruct (nth_error cs i) as [l|]; [|discriminate].
    injection H as <-. unfold row_cell. rewrite flat_nth. destruct (nth_error l j) as [[[a b] c]|]; reflexivity.
  Qed.

  Theorem parse_accepts : parse_tm (join "_" rows) <> None <->
    forall i row, nth_error rows i = Some row ->
      (length row mod 3 = 0)%nat /\ forall j t, row_cell row j = Some t -> undef_text t \/ good_text (text_symbols rows) t.
  Proof.
    destruct meaning_split as (Hsp & Hex). unfold parse_tm. rewrite Hex, Hsp. split.
    - intros H i row Hi. destruct (otraverse (map chunk3 rows)) as [cs|] eqn:Ec; [|congruence].
      pose proof (chunks_text _ Ec) as Hrows.
      destruct (row_quints (parse_trans (length cs)) cs) as [qs|] eqn:Eq; [|congruence].
      destruct (row_quints_spec _ _ _ Eq) as (Hok & Hin). split.
      + pose proof Hi as Hi'. rewrite Hrows in Hi'. unfold text_of_rows in Hi'. rewrite nth_error_map in Hi'.
        destruct (nth_error cs i) as [l|]; [|discriminate]. injection Hi' as <-. rewrite flat_length, Nat.mul_comm. apply Nat.mod_mul. lia.
      + intros j t Ht. rewrite (row_cell_chunk cs i j row Hrows Hi) in Ht. specialize (Hok i j t Ht).
        destruct (parse_trans (length cs) i j t) as [l|] eqn:Ep; [|congruence].
        destruct (parse_trans_spec _ _ _ _ _ Ep) as [(Hu & _)|(Hu & Hg)]; auto. right.
        destruct t as [[a b] c]. destruct Hg as (w & d & q & Hw & -> & -> & -> & _). exists w, d. repeat split; auto.
        unfold text_symbols. rewrite Hrows, symbols_text.
        destruct (tm_from_quintuples qs (length cs) _) as [tab|] eqn:Et in H; [|cbn in H; congruence].
        destruct (quintuples_rect _ _ _ _ Et) as (_ & Hf). rewrite Forall_forall in Hf.
        assert (Hq : In (Quint i j (Some w) d q) qs).
        { apply Hin. do 4 eexists. split; [exact Ht|]. split; [exact Ep|]. left. reflexivity. }
        specialize (Hf _ Hq). unfold row_in_range in Hf. cbn in Hf. tauto.
    - intros H.
      destruct (otraverse (map chunk3 rows)) as [cs|] eqn:Ec.
      2:{ exfalso. destruct (otraverse_all (map chunk3 rows)) as (r & Er); [|congruence].
          intros x Hx Hn. apply in_map_iff in Hx. destruct Hx as (row & Hc & Hrow). subst x. apply In_nth_error in Hrow. destruct Hrow as (i & Hi).
          apply (chunk3_none row Hn). now apply (H i row). }
      pose proof (chunks_text _ Ec) as Hrows.
      assert (Hcs : forall i j t, cell cs i j = Some t -> undef_text t \/ good_text (text_symbols rows) t).
      { intros i j t Ht. assert (Hi : exists row, nth_error rows i = Some row).
        { rewrite Hrows. unfold text_of_rows. rewrite nth_error_map. unfold cell in Ht. destruct (nth_error cs i); [|discriminate]. simpl. eauto. }
        destruct Hi as (row & Hi). destruct (H i row Hi) as (_ & Hj). apply (Hj j). now rewrite (row_cell_chunk cs i j row Hrows Hi). }
      destruct (row_quints (parse_trans (length cs)) cs) as [qs|] eqn:Eq.
      2:{ exfalso. apply (row_quints_total (parse_trans (length cs)) cs); auto. intros i j t Ht. apply parse_trans_ok.
          destruct (Hcs i j t Ht) as [Hu|Hg]; auto. right. destruct t as [[a b] c]. destruct Hg as (w & d & _ & Hw & -> & ->). exists w, d. auto. }
      destruct (row_quints_spec _ _ _ Eq) as (_ & Hin).
      set (m := S (fold_left (fun k r => Nat.max k (length r - 1)) cs 0%nat)).
      assert (Hm : m = text_symbols rows) by (unfold text_symbols; rewrite Hrows, symbols_text; reflexivity).
      assert (Hacc : tm_from_quintuples qs (length cs) m <> None).
      { apply (proj2 (quintuples_accepts _ _ _)). apply Forall_forall. intros q Hq. apply Hin in Hq. destruct Hq as (i & j & t & l & Ht & Hp & Hq).
        destruct (parse_trans_spec _ _ _ _ _ Hp) as [(_ & ->)|(Hu & Hg)]; [destruct Hq|].
        destruct (Hcs i j t Ht) as [?|Hg2]; [contradiction|]. destruct t as [[a b] c].
        destruct Hg as (w & d & st & Hw & -> & -> & -> & Hst). destruct Hq as [<- |[]].
        destruct Hg2 as (w' & d' & Hwm & Hw10 & Ew & _).
        assert (w = w').
        { pose proof (proj2 (find_digit_spec (digit w) w) (conj Hw eq_refl)) as E1. rewrite Ew in E1.
          pose proof (proj2 (find_digit_spec (digit w') w') (conj Hw10 eq_refl)). congruence. }
        subst w'. unfold row_in_range. cbn [q_symbol_out q_state_in q_symbol_in q_state_out].
        assert (Hi : (i < length cs)%nat).
        { unfold cell in Ht. apply nth_error_Some. intros E. rewrite E in Ht. discriminate. }
        assert (Hj : (j < m)%nat).
        { unfold m. unfold cell in Ht. destruct (nth_error cs i) as [l|] eqn:El; [|discriminate].
          assert (Hjl : (j < length l)%nat) by (apply nth_error_Some; congruence).
          assert (Hmax : forall (cs : list (list triple)) k, (k <= fold_left (fun k r => Nat.max k (length r - 1)) cs k)%nat /\
            forall l, In l cs -> (length l - 1 <= fold_left (fun k r => Nat.max k (length r - 1)) cs k)%nat).
          { clear. induction cs as [|l cs IH]; intros k; simpl; [split; [lia|tauto]|]. destruct (IH (Nat.max k (length l - 1))) as (I1 & I2).
            split; [lia|]. intros x [<- |Hx]; [lia|]. auto. }
          destruct (Hmax cs 0%nat) as (_ & Hx). specialize (Hx l (nth_error_In _ _ El)). lia. }
        rewrite Hm in *. repeat split; auto. destruct Hst as [(k & Hk & _ & _ & ->)|(_ & ->)]; auto. }
      fold m. destruct (tm_from_quintuples qs (length cs) m); [discriminate|congruence].
  Qed.

  Theorem parse_meaning tab n m : parse_tm (join "_" rows) = Some (tab, n, m) ->
    n = length rows /\ m = text_symbols rows /\ std_table n m tab /\
    forall i row, nth_error rows i = Some row ->
      (forall j t, row_cell row j = Some t -> text_action n t (table_of tab i j)) /\
      (forall j, (j < m)%nat -> row_cell row j = None -> table_of tab i j = Stop 1 R false).
  Proof.
    destruct meaning_split as (Hsp & Hex). unfold parse_tm. rewrite Hex, Hsp. intros H.
    destruct (otraverse (map chunk3 rows)) as [cs|] eqn:Ec; [|discriminate].
    pose proof (chunks_text _ Ec) as Hrows.
    destruct (row_quints (parse_trans (length cs)) cs) as [qs|] eqn:Eq; [|discriminate].
    destruct (row_quints_spec _ _ _ Eq) as (Hok & Hin).
    destruct (tm_from_quintuples qs (length cs) _) as [tab'|] eqn:Et in H; [|discriminate]. cbn in H. injection H as -> <- Hm.
    rewrite Hm in Et.
    assert (Hlen : length cs = length rows) by (rewrite Hrows; unfold text_of_rows; now rewrite map_length).
    assert (Hm' : m = text_symbols rows) by (unfold text_symbols; rewrite Hrows, symbols_text; auto).
    split; auto. split; auto. split; [eapply quintuples_std; eauto|].
    assert (Hlast : forall i j, last_row qs i j = match cell cs i j with
                       | Some t => match parse_trans (length cs) i j t with Some (q :: _) => Some q | _ => None end | None => None end).
    { intros i j. destruct (last_row qs i j) as [q|] eqn:E.
      - apply last_row_spec in E. destruct E as (Hq & Hqi & Hqj & _). apply Hin in Hq. destruct Hq as (i' & j' & t & l & Ht & Hp & Hq).
        destruct (parse_trans_spec _ _ _ _ _ Hp) as [(_ & ->)|(_ & Hg)]; [destruct Hq|]. destruct t as [[a b] c].
        destruct Hg as (w & d & st & _ & _ & _ & -> & _). destruct Hq as [<- |[]]. cbn in Hqi, Hqj. subst i' j'. now rewrite Ht, Hp.
      - destruct (cell cs i j) as [t|] eqn:Ht; auto. destruct (parse_trans (length cs) i j t) as [l|] eqn:Hp; auto.
        destruct (parse_trans_spec _ _ _ _ _ Hp) as [(_ & ->)|(_ & Hg)]; auto. destruct t as [[a b] c].
        destruct Hg as (w & d & st & _ & _ & _ & -> & _). exfalso.
        assert (Hq : In (Quint i j (Some w) d st) qs) by (apply Hin; do 4 eexists; split; [exact Ht|]; split; [exact Hp|]; left; auto).
        apply in_rev in Hq. pose proof (find_none _ _ E _ Hq) as Hn. unfold row_for in Hn. cbn in Hn. rewrite !Nat.eqb_refl in Hn. discriminate. }
    intros i row Hi. assert (Hil : (i < length cs)%nat) by (rewrite Hlen; apply nth_error_Some; congruence). split.
    - intros j t Ht. rewrite (row_cell_chunk cs i j row Hrows Hi) in Ht.
      assert (Hjm : (j < m)%nat).
      { rewrite <- Hm. unfold cell in Ht. destruct (nth_error cs i) as [l|] eqn:El; [|discriminate].
        assert (Hjl : (j < length l)%nat) by (apply nth_error_Some; congruence).
        assert (Hmax : forall (cs : list (list triple)) k, (k <= fold_left (fun k r => Nat.max k (length r - 1)) cs k)%nat /\
            forall l, In l cs -> (length l - 1 <= fold_left (fun k r => Nat.max k (length r - 1)) cs k)%nat).
        { clear. induction cs as [|l cs IH]; intros k; simpl; [split; [lia|tauto]|]. destruct (IH (Nat.max k (length l - 1))) as (I1 & I2).
          split; [lia|]. intros x [<- |Hx]; [lia|]. auto. }
        destruct (Hmax cs 0%nat) as (_ & Hx). specialize (Hx l (nth_error_In _ _ El)). lia. }
      rewrite (quintuples_table _ _ _ _ i j Et Hil Hjm), Hlast, Ht. specialize (Hok i j t Ht).
      destruct (parse_trans (length cs) i j t) as [l|] eqn:Hp; [|congruence].
      destruct (parse_trans_spec _ _ _ _ _ Hp) as [(Hu & ->)|(Hu & Hg)]; [left; auto|]. right. split; auto. destruct t as [[a b] c].
      destruct Hg as (w & d & st & Hw & -> & -> & -> & Hst). exists w, d. repeat split; auto. unfold row_action. cbn [q_symbol_out q_state_out q_dir_out].
      destruct Hst as [(k & Hk & Hk' & -> & ->)|(Hk & ->)]; [left; exists k; auto|right; auto].
    - intros j Hj Ht. rewrite (row_cell_chunk cs i j row Hrows Hi) in Ht.
      now rewrite (quintuples_table _ _ _ _ i j Et Hil Hj), Hlast, Ht.
  Qed.
End Meaning.

(** reading one entry of a database *)
Lemma byte_at_app p (data : list Z) k : (k < 30)%nat -> byte_at (firstn 30 (skipn p data)) k = byte_at data (p + k).
Proof.
  intros Hk. unfold byte_at. rewrite <- (firstn_skipn p data) at 2.
  destruct (Nat.le_gt_cases (length data) p) as [H|H].
  - rewrite (skipn_all2 data) by auto. rewrite firstn_nil, app_nil_r. rewrite (firstn_all2 data) by auto.
    rewrite nth_overflow by (simpl; lia). rewrite nth_overflow; auto. lia.
  - rewrite app_nth2 by (rewrite firstn_length; lia). rewrite firstn_length, Nat.min_l by lia.
    replace (p + k - p)%nat with k by lia. rewrite <- (firstn_skipn 30 (skipn p data)) at 2.
    destruct (Nat.le_gt_cases (length (firstn 30 (skipn p data))) k) as [H'|H'].
    + rewrite nth_overflow by auto. rewrite nth_overflow; auto. rewrite firstn_skipn. rewrite firstn_length in H'. lia.
    + now rewrite app_nth1 by auto.
Qed.

Lemma zseek_pos p data q : (p <= length data)%nat -> zseek p (File data q) = File data p.
Proof. intros H. unfold zseek. cbn. now rewrite Nat.min_l. Qed.

Lemma bbc_iter data n : Nat.iter n (fun f => snd (bbc_skip f)) (bbc_open data) = File data (Nat.min (30 + n * 30) (length data)).
Proof.
  induction n as [|n IH].
  - reflexivity.
  - cbn [Nat.iter nat_rect]. change (nat_rect _ _ _ n) with (Nat.iter n (fun f => snd (bbc_skip f)) (bbc_open data)). rewrite IH. unfold bbc_skip, zseek. cbn [snd f_data f_pos]. f_equal. lia.
Qed.
Lemma bbc_load_get data n q : bbc_load data n = fst (bbc_get (File data q) n).
Proof. unfold bbc_load, bbc_get. rewrite bbc_iter. reflexivity. Qed.
