(** Lemmas about the stored files (C97). *)
From Coq Require Import List Ascii Bool ZArith Arith Lia Reals Lra.
From Flocq Require Import Core.Core IEEE754.BinarySingleNaN.
From Verif.Base Require Import Outcome Float64.
From Verif.Model Require Import MCsv MFreeSpace MStore.
From Verif.Spec Require Import SUtil SStore.
Import ListNotations.
Local Open Scope Z_scope.

(** -- digits -- *)
Lemma digit_value_digit d : 0 <= d < 10 -> digit_value (digit d) = Some d.
Proof.
  intros H. assert (K : d = 0 \/ d = 1 \/ d = 2 \/ d = 3 \/ d = 4 \/ d = 5 \/ d = 6 \/ d = 7 \/ d = 8 \/ d = 9) by lia.
  repeat (destruct K as [->|K]; [reflexivity|]). subst. reflexivity.
Qed.

Definition isdig (c : ascii) : Prop := exists d, digit_value c = Some d.
(** The number a list of digits stands for. *)
Definition dv (l : list ascii) : Z := fold_left (fun a c => match digit_value c with Some d => 10 * a + d | None => a end) l 0.
Definition dva (a : Z) (l : list ascii) : Z := fold_left (fun a c => match digit_value c with Some d => 10 * a + d | None => a end) l a.
Lemma dv_dva l : dv l = dva 0 l. Proof. reflexivity. Qed.

Lemma digits_value_dva l : Forall isdig l -> forall a, digits_value a l = Some (dva a l).
Proof.
  induction 1 as [|c l (d & Hd) _ IH]; intros a; [reflexivity|]. cbn [digits_value dva fold_left]. rewrite Hd. apply IH.
Qed.
Lemma dva_acc l : Forall isdig l -> forall a, dva a l = a * 10 ^ Z.of_nat (length l) + dva 0 l.
Proof.
  induction 1 as [|c l (d & Hd) _ IH]; intros a.
  - cbn. lia.
  - unfold dva. cbn [fold_left length]. rewrite Hd. fold (dva (10 * a + d) l). fold (dva (10 * 0 + d) l).
    rewrite (IH (10 * a + d)), (IH (10 * 0 + d)). rewrite Nat2Z.inj_succ, Z.pow_succ_r by lia. ring.
Qed.
Lemma dv_app a b : Forall isdig b -> dv (a ++ b) = dv a * 10 ^ Z.of_nat (length b) + dv b.
Proof.
  intros H. unfold dv at 1. rewrite fold_left_app. fold (dv a). fold (dva (dv a) b). rewrite (dva_acc b H). reflexivity.
Qed.
Lemma whole_dv l : Forall isdig l -> l <> [] -> whole l = Some (dv l).
Proof. intros H N. destruct l as [|c r]; [contradiction|]. unfold whole. rewrite (digits_value_dva _ H). reflexivity. Qed.

Lemma dva_nonneg l : forall a, 0 <= a -> 0 <= dva a l.
Proof.
  induction l as [|c l IH]; intros a Ha; [exact Ha|]. cbn [dva fold_left]. apply IH.
  unfold digit_value. destruct (Nat.leb 48 _ && Nat.leb _ 57) eqn:E; [|exact Ha].
  apply andb_prop in E. destruct E as [E _]. apply Nat.leb_le in E. lia.
Qed.

(** -- decimal digits of an integer -- *)
Lemma dec_digits_app fuel : forall n acc, dec_digits fuel n acc = dec_digits fuel n [] ++ acc.
Proof.
  induction fuel as [|k IH]; intros n acc; [reflexivity|]. cbn [dec_digits].
  destruct (n <? 10); [reflexivity|]. rewrite (IH _ (_ :: acc)), (IH _ [_]), <- app_assoc. reflexivity.
Qed.
Lemma isdig_digit d : 0 <= d < 10 -> isdig (digit d).
Proof. intros H. exists d. apply digit_value_digit, H. Qed.
Lemma dec_digits_dig fuel : forall n, 0 <= n -> Forall isdig (dec_digits fuel n []).
Proof.
  induction fuel as [|k IH]; intros n Hn; [constructor|]. cbn [dec_digits].
  assert (M : isdig (digit (n mod 10))) by (apply isdig_digit, Z.mod_pos_bound; lia).
  destruct (n <? 10); [repeat constructor; exact M|]. rewrite dec_digits_app. apply Forall_app.
  split; [apply IH, Z.div_pos; lia|repeat constructor; exact M].
Qed.
Lemma dec_digits_val fuel : forall n, 0 <= n -> n < 2 ^ Z.of_nat fuel -> fuel <> O -> dv (dec_digits fuel n []) = n.
Proof.
  induction fuel as [|k IH]; intros n Hn Hb H0; [contradiction|]. cbn [dec_digits].
  assert (Mb : 0 <= n mod 10 < 10) by (apply Z.mod_pos_bound; lia).
  destruct (n <? 10) eqn:E.
  - apply Z.ltb_lt in E. unfold dv. cbn [fold_left]. rewrite (digit_value_digit _ Mb). rewrite Z.mod_small by lia. lia.
  - apply Z.ltb_ge in E. rewrite Nat2Z.inj_succ, Z.pow_succ_r in Hb by lia.
    rewrite dec_digits_app, dv_app by (repeat constructor; apply isdig_digit, Mb).
    assert (Q : n / 10 < 2 ^ Z.of_nat k) by (apply Z.div_lt_upper_bound; lia).
    rewrite IH.
    + unfold dv. cbn [fold_left length]. rewrite (digit_value_digit _ Mb). change (10 ^ Z.of_nat 1) with 10.
      pose proof (Z.div_mod n 10). lia.
    + apply Z.div_pos; lia.
    + exact Q.
    + intros ->. change (2 ^ Z.of_nat 0) with 1 in Q. assert (1 <= n / 10) by (apply Z.div_le_lower_bound; lia). lia.
Qed.
Lemma log2_fuel n : 0 <= n -> n < 2 ^ Z.of_nat (S (Z.to_nat (Z.log2 n))).
Proof.
  intros H. rewrite Nat2Z.inj_succ, Z2Nat.id by apply Z.log2_nonneg.
  destruct (Z.eq_dec n 0) as [->|N]; [reflexivity|]. apply Z.log2_spec. lia.
Qed.
Lemma dec_dig n : 0 <= n -> Forall isdig (dec n).
Proof. intros H. apply dec_digits_dig, H. Qed.
Lemma dec_val n : 0 <= n -> dv (dec n) = n.
Proof. intros H. unfold dec. apply dec_digits_val; [exact H|apply log2_fuel, H|discriminate]. Qed.
Lemma dec_nonempty n : dec n <> [].
Proof. unfold dec. cbn [dec_digits]. destruct (n <? 10); [discriminate|]. rewrite dec_digits_app. intros H. apply app_eq_nil in H. destruct H as [_ H]. discriminate H. Qed.
Lemma dec_digits_length fuel : forall n k, 10 ^ Z.of_nat k <= n < 10 ^ Z.of_nat (S k) -> (S k <= fuel)%nat ->
  length (dec_digits fuel n []) = S k.
Proof.
  induction fuel as [|f IH]; intros n k Hn Hf; [lia|]. cbn [dec_digits]. destruct k as [|k].
  - change (10 ^ Z.of_nat 0) with 1 in Hn. change (10 ^ Z.of_nat 1) with 10 in Hn.
    replace (n <? 10) with true by (symmetry; apply Z.ltb_lt; lia). reflexivity.
  - assert (P : 10 ^ Z.of_nat (S k) = 10 * 10 ^ Z.of_nat k) by (rewrite Nat2Z.inj_succ, Z.pow_succ_r; lia).
    assert (P' : 10 ^ Z.of_nat (S (S k)) = 10 * 10 ^ Z.of_nat (S k)) by (rewrite (Nat2Z.inj_succ (S k)), Z.pow_succ_r; lia).
    assert (0 < 10 ^ Z.of_nat k) by (apply Z.pow_pos_nonneg; lia).
    replace (n <? 10) with false by (symmetry; apply Z.ltb_ge; lia).
    rewrite dec_digits_app, app_length, (IH (n / 10) k).
    + cbn [length]. lia.
    + split; [apply Z.div_le_lower_bound; lia|apply Z.div_lt_upper_bound; lia].
    + lia.
Qed.
Lemma dec_length6 D : 100000 <= D < 1000000 -> length (dec D) = 6%nat.
Proof.
  intros H. unfold dec. apply (dec_digits_length _ D 5); [exact H|].
  assert (16 <= Z.log2 D) by (apply Z.log2_le_pow2; [lia|]; lia). lia.
Qed.

(** -- trailing zeros -- *)
Lemma strip_zeros l : exists k, l = strip l ++ repeat "0"%char k.
Proof.
  induction l as [|c l (k & IH)]; [exists O; reflexivity|]. cbn [strip]. destruct (strip l) as [|x s] eqn:E.
  - destruct (Ascii.eqb_spec c "0"%char) as [->|N].
    + exists (S k). rewrite IH at 1. reflexivity.
    + exists k. rewrite IH at 1. reflexivity.
  - exists k. rewrite IH at 1. reflexivity.
Qed.
Lemma dv_zeros k : dv (repeat "0"%char k) = 0.
Proof. unfold dv. induction k as [|k IH]; [reflexivity|]. cbn [repeat fold_left]. exact IH. Qed.
Lemma zeros_dig k : Forall isdig (repeat "0"%char k).
Proof. induction k as [|k IH]; constructor; [exists 0; reflexivity|exact IH]. Qed.
Lemma strip_dig l : Forall isdig l -> Forall isdig (strip l).
Proof. intros H. destruct (strip_zeros l) as (k & E). rewrite E in H. apply Forall_app in H. exact (proj1 H). Qed.

(** Value of the digits behind the point. *)
Definition frac (l : list ascii) : R := (IZR (dv l) / 10 ^ length l)%R.
Lemma pow10_pos k : (0 < 10 ^ k)%R. Proof. apply pow_lt. lra. Qed.
Lemma IZR_pow10 n : IZR (10 ^ Z.of_nat n) = (10 ^ n)%R.
Proof. rewrite <- pow_IZR. reflexivity. Qed.
Lemma frac_app a b : Forall isdig b -> frac (a ++ b) = (frac a + frac b / 10 ^ length a)%R.
Proof.
  intros H. unfold frac. rewrite (dv_app _ _ H), app_length, pow_add, plus_IZR, mult_IZR, IZR_pow10.
  pose proof (pow10_pos (length a)). pose proof (pow10_pos (length b)). field. lra.
Qed.
Lemma frac_strip l : frac (strip l) = frac l.
Proof.
  destruct (strip_zeros l) as (k & E). rewrite E at 2. rewrite frac_app by apply zeros_dig.
  unfold frac at 3. rewrite dv_zeros. unfold Rdiv. lra.
Qed.
Lemma frac_zeros k l : Forall isdig l -> frac (repeat "0"%char k ++ l) = (frac l / 10 ^ k)%R.
Proof.
  intros H. rewrite frac_app by exact H. unfold frac at 1. rewrite dv_zeros, repeat_length. unfold Rdiv. lra.
Qed.

(** -- splitting -- *)
Lemma split_none c l : ~ In c l -> split c l = [l].
Proof.
  induction l as [|x l IH]; intros H; [reflexivity|]. cbn [split]. destruct (Ascii.eqb_spec x c) as [->|N].
  - exfalso. apply H. left. reflexivity.
  - rewrite IH; [reflexivity|]. intros K. apply H. right. exact K.
Qed.
Lemma split_at c a b : ~ In c a -> split c (a ++ c :: b) = a :: split c b.
Proof.
  induction a as [|x a IH]; intros H; cbn [app split].
  - rewrite Ascii.eqb_refl. reflexivity.
  - destruct (Ascii.eqb_spec x c) as [->|N]; [exfalso; apply H; left; reflexivity|].
    rewrite IH; [reflexivity|]. intros K. apply H. right. exact K.
Qed.
Lemma dig_not c l : Forall isdig l -> digit_value c = None -> ~ In c l.
Proof. intros H N K. rewrite Forall_forall in H. destruct (H c K) as (d & Hd). rewrite N in Hd. discriminate Hd. Qed.

(** The text i or i.f with f stripped. *)
Lemma mantissa_text i l : Forall isdig i -> i <> [] -> Forall isdig l ->
  mantissa (i ++ fraction l) = Some (IZR (dv i) + frac l)%R.
Proof.
  intros Hi Ni Hl. unfold mantissa, fraction. pose proof (frac_strip l) as F. pose proof (strip_dig l Hl) as Hs.
  destruct (strip l) as [|c s].
  - rewrite app_nil_r, (split_none _ _ (dig_not "."%char _ Hi eq_refl)), (whole_dv i Hi Ni). f_equal. rewrite <- F. unfold frac. cbn. lra.
  - rewrite (split_at _ _ _ (dig_not "."%char _ Hi eq_refl)), (split_none _ _ (dig_not "."%char _ Hs eq_refl)).
    rewrite (whole_dv i Hi Ni), (whole_dv (c :: s) Hs) by discriminate. rewrite <- F. reflexivity.
Qed.
Lemma fraction_chars l c : Forall isdig l -> In c (fraction l) -> c = "."%char \/ isdig c.
Proof.
  intros Hl H. unfold fraction in H. pose proof (strip_dig l Hl) as Hs. rewrite Forall_forall in Hs.
  destruct (strip l) as [|x s]; [contradiction|]. destruct H as [<-|H]; [left; reflexivity|right; apply Hs, H].
Qed.

Lemma firstn_dig k l : Forall isdig l -> Forall isdig (firstn k l).
Proof. intros H. rewrite <- (firstn_skipn k l) in H. apply Forall_app in H. exact (proj1 H). Qed.
Lemma skipn_dig k l : Forall isdig l -> Forall isdig (skipn k l).
Proof. intros H. rewrite <- (firstn_skipn k l) in H. apply Forall_app in H. exact (proj2 H). Qed.

(** Value of the first digits and of the rest as a fraction. *)
Lemma cut_value D k : 100000 <= D < 1000000 -> (k <= 6)%nat ->
  (IZR (dv (firstn k (dec D))) + frac (skipn k (dec D)) = IZR D / 10 ^ (6 - k))%R.
Proof.
  intros HD Hk. pose proof (dec_dig D ltac:(lia)) as Hd. pose proof (dec_val D ltac:(lia)) as V. pose proof (dec_length6 D HD) as L.
  rewrite <- (firstn_skipn k (dec D)) in V. rewrite dv_app in V by apply skipn_dig, Hd. unfold frac.
  rewrite skipn_length, L in *. apply (f_equal IZR) in V. rewrite plus_IZR, mult_IZR, IZR_pow10 in V. rewrite <- V.
  pose proof (pow10_pos (6 - k)). field. lra.
Qed.

Lemma powerRZ_nat z : (0 <= z)%Z -> powerRZ 10 z = (10 ^ Z.to_nat z)%R.
Proof. intros H. rewrite <- (Z2Nat.id z H) at 1. symmetry. apply pow_powerRZ. Qed.

Lemma pneg n : powerRZ 10 (- Z.of_nat n) = (/ 10 ^ n)%R.
Proof. destruct n as [|n]; [cbn; lra|]. cbn [Z.of_nat Z.opp powerRZ]. rewrite SuccNat2Pos.id_succ. reflexivity. Qed.

Lemma unsigned_plain t : (forall c, In c t -> c = "."%char \/ isdig c) -> unsigned t = mantissa t.
Proof.
  intros H. unfold unsigned. rewrite split_none; [reflexivity|]. intros K. destruct (H _ K) as [E|(d & E)]; discriminate E.
Qed.

Lemma fixed_unsigned D X : 100000 <= D < 1000000 -> -4 <= X < 6 ->
  unsigned (fixed_text D X) = Some (IZR D * powerRZ 10 (X - 5))%R.
Proof.
  intros HD HX. pose proof (dec_dig D ltac:(lia)) as Hd. unfold fixed_text. destruct (0 <=? X) eqn:E.
  - apply Z.leb_le in E. set (k := Z.to_nat (X + 1)). assert (Hk : (k <= 6 /\ 1 <= k)%nat) by lia.
    rewrite unsigned_plain.
    + rewrite mantissa_text; [|apply firstn_dig, Hd| |apply skipn_dig, Hd].
      * rewrite cut_value by (try exact HD; lia). f_equal. unfold Rdiv. f_equal.
        replace (X - 5) with (- Z.of_nat (6 - k)) by lia. rewrite pneg. reflexivity.
      * intros Z0. apply (f_equal (@length _)) in Z0. rewrite firstn_length, (dec_length6 D HD) in Z0. cbn in Z0. lia.
    + intros c Hc. apply in_app_or in Hc. destruct Hc as [Hc|Hc].
      * right. pose proof (firstn_dig k _ Hd) as F. rewrite Forall_forall in F. apply F, Hc.
      * apply (fraction_chars _ _ (skipn_dig k _ Hd) Hc).
  - apply Z.leb_gt in E.
    assert (Hz : Forall isdig (repeat "0"%char (Z.to_nat (- X - 1)) ++ dec D)) by (apply Forall_app; split; [apply zeros_dig|exact Hd]).
    assert (H0 : Forall isdig ["0"%char]) by (repeat constructor; exists 0; reflexivity).
    rewrite unsigned_plain.
    + rewrite mantissa_text; [|exact H0|discriminate|exact Hz]. rewrite (frac_zeros _ _ Hd). unfold frac.
      rewrite (dec_val D) by lia. rewrite (dec_length6 D HD). f_equal. change (dv ["0"%char]) with 0.
      replace (X - 5) with (- Z.of_nat (6 + Z.to_nat (- X - 1))) by lia. rewrite pneg, pow_add.
      pose proof (pow10_pos 6). pose proof (pow10_pos (Z.to_nat (- X - 1))). field. lra.
    + intros c Hc. apply in_app_or in Hc. destruct Hc as [Hc|Hc].
      * right. rewrite Forall_forall in H0. apply H0, Hc.
      * apply (fraction_chars _ _ Hz Hc).
Qed.

Lemma two_digits_dig n : 0 <= n -> Forall isdig (two_digits n).
Proof. intros H. unfold two_digits. destruct (n <? 10); [constructor; [exists 0; reflexivity|]|]; apply dec_dig, H. Qed.
Lemma two_digits_val n : 0 <= n -> dv (two_digits n) = n.
Proof.
  intros H. unfold two_digits. destruct (n <? 10); [|apply dec_val, H].
  change ("0"%char :: dec n) with (["0"%char] ++ dec n). rewrite dv_app by apply dec_dig, H. rewrite (dec_val n H). reflexivity.
Qed.
Lemma two_digits_nonempty n : two_digits n <> [].
Proof. unfold two_digits. destruct (n <? 10); [discriminate|apply dec_nonempty]. Qed.

Lemma exp_unsigned D X : 100000 <= D < 1000000 ->
  unsigned (exp_text D X) = Some (IZR D * powerRZ 10 (X - 5))%R.
Proof.
  intros HD. pose proof (dec_dig D ltac:(lia)) as Hd. unfold exp_text. rewrite app_assoc.
  set (m := firstn 1 (dec D) ++ fraction (skipn 1 (dec D))).
  assert (Hm : mantissa m = Some (IZR D / 10 ^ 5)%R).
  { unfold m. rewrite mantissa_text; [|apply firstn_dig, Hd| |apply skipn_dig, Hd].
    - rewrite cut_value by (try exact HD; lia). reflexivity.
    - intros Z0. apply (f_equal (@length _)) in Z0. rewrite firstn_length, (dec_length6 D HD) in Z0. cbn in Z0. lia. }
  assert (Nm : ~ In "e"%char m).
  { intros K. unfold m in K. apply in_app_or in K. destruct K as [K|K].
    - exact (dig_not "e"%char _ (firstn_dig 1 _ Hd) eq_refl K).
    - destruct (fraction_chars _ _ (skipn_dig 1 _ Hd) K) as [E|(d & E)]; discriminate E. }
  assert (A0 : 0 <= Z.abs X) by lia.
  unfold unsigned. rewrite (split_at _ _ _ Nm). rewrite split_none.
  2:{ intros [K|K]; [destruct (X <? 0); discriminate K|]. exact (dig_not "e"%char _ (two_digits_dig _ A0) eq_refl K). }
  rewrite Hm. unfold exponent.
  assert (W : whole (two_digits (Z.abs X)) = Some (Z.abs X)).
  { rewrite (whole_dv _ (two_digits_dig _ A0) (two_digits_nonempty _)), (two_digits_val _ A0). reflexivity. }
  assert (P : (IZR D / 10 ^ 5 * powerRZ 10 X = IZR D * powerRZ 10 (X - 5))%R).
  { replace (X - 5) with (X + - Z.of_nat 5) by lia. rewrite powerRZ_add by lra. rewrite pneg.
    pose proof (pow10_pos 5). field. }
  destruct (X <? 0) eqn:E.
  - apply Z.ltb_lt in E. change (Ascii.eqb "-" "+") with false. change (Ascii.eqb "-" "-") with true. cbv iota. rewrite W. cbv iota.
    rewrite Z.abs_neq, Z.opp_involutive by lia. f_equal. exact P.
  - apply Z.ltb_ge in E. change (Ascii.eqb "+" "+") with true. cbv iota. rewrite W. cbv iota.
    rewrite Z.abs_eq by lia. f_equal. exact P.
Qed.

(** -- six significant digits -- *)
Lemma below10_spec p q k : 0 < p -> 0 < q -> (below10 p q k = true <-> (IZR p / IZR q < powerRZ 10 k)%R).
Proof.
  intros Hp Hq. assert (Q : (0 < IZR q)%R) by (apply IZR_lt; exact Hq). unfold below10. destruct (0 <=? k) eqn:E.
  - apply Z.leb_le in E. rewrite Z.ltb_lt, powerRZ_nat by exact E. rewrite <- IZR_pow10, (Z2Nat.id k E). split; intros H.
    + apply IZR_lt in H. rewrite mult_IZR in H. apply (Rmult_lt_reg_r (IZR q)); [exact Q|]. unfold Rdiv. rewrite Rmult_assoc, Rinv_l; lra.
    + apply lt_IZR. rewrite mult_IZR. apply (Rmult_lt_compat_r (IZR q)) in H; [|exact Q]. unfold Rdiv in H. rewrite Rmult_assoc, Rinv_l in H; lra.
  - apply Z.leb_gt in E. rewrite Z.ltb_lt. replace k with (- Z.of_nat (Z.to_nat (- k))) at 2 by lia. rewrite pneg.
    replace (- k) with (Z.of_nat (Z.to_nat (- k))) at 1 by lia. set (n := Z.to_nat (- k)). pose proof (pow10_pos n) as N.
    split; intros H.
    + apply IZR_lt in H. rewrite mult_IZR, IZR_pow10 in H. apply (Rmult_lt_reg_r (IZR q)); [exact Q|]. apply (Rmult_lt_reg_r (10 ^ n)); [exact N|].
      replace (IZR p / IZR q * IZR q * 10 ^ n)%R with (IZR p * 10 ^ n)%R by (field; lra).
      replace (/ 10 ^ n * IZR q * 10 ^ n)%R with (IZR q) by (field; lra). exact H.
    + apply lt_IZR. rewrite mult_IZR, IZR_pow10.
      replace (IZR p * 10 ^ n)%R with (IZR p / IZR q * (IZR q * 10 ^ n))%R by (field; lra).
      replace (IZR q) with (/ 10 ^ n * (IZR q * 10 ^ n))%R at 3 by (field; lra).
      apply Rmult_lt_compat_r; [nra|exact H].
Qed.
Lemma decade_spec fuel p q : 0 < p -> 0 < q -> forall lo,
  (powerRZ 10 lo <= IZR p / IZR q)%R -> (IZR p / IZR q < powerRZ 10 (lo + Z.of_nat fuel))%R ->
  let X := decade fuel p q lo in (powerRZ 10 X <= IZR p / IZR q < powerRZ 10 (X + 1))%R.
Proof.
  intros Hp Hq. induction fuel as [|k IH]; intros lo Hlo Hhi.
  - cbn in Hhi. rewrite Z.add_0_r in Hhi. exfalso. lra.
  - cbn [decade]. pose proof (below10_spec p q (lo + 1) Hp Hq) as B. destruct (below10 p q (lo + 1)).
    + cbv zeta. split; [exact Hlo|apply B; reflexivity].
    + apply IH.
      * apply Rnot_lt_le. intros K. apply B in K. discriminate K.
      * replace (lo + 1 + Z.of_nat k) with (lo + Z.of_nat (S k)) by lia. exact Hhi.
Qed.

Lemma nearest_even_spec num den : 0 < den -> (Rabs (IZR (nearest_even num den) - IZR num / IZR den) <= / 2)%R.
Proof.
  intros Hd. assert (Q : (0 < IZR den)%R) by (apply IZR_lt; exact Hd). unfold nearest_even.
  pose proof (Z.div_mod num den ltac:(lia)) as E. pose proof (Z.mod_pos_bound num den Hd) as B.
  set (d := num / den) in *. set (r := num mod den) in *. clearbody d r.
  assert (F : (IZR num / IZR den = IZR d + IZR r / IZR den)%R).
  { rewrite E, plus_IZR, mult_IZR. field. lra. }
  rewrite F. assert (R0 : (0 <= IZR r / IZR den < 1)%R).
  { split; [apply Rmult_le_pos; [apply IZR_le; lia|left; apply Rinv_0_lt_compat, Q]|]. apply (Rmult_lt_reg_r (IZR den)); [exact Q|].
    unfold Rdiv. rewrite Rmult_assoc, Rinv_l by lra. rewrite Rmult_1_r, Rmult_1_l. apply IZR_lt. lia. }
  assert (Lo : 2 * r <= den -> (IZR r / IZR den <= / 2)%R).
  { intros H. apply IZR_le in H. rewrite mult_IZR in H. apply (Rmult_le_reg_r (IZR den)); [exact Q|]. unfold Rdiv. rewrite Rmult_assoc, Rinv_l by lra. lra. }
  assert (Hi : den <= 2 * r -> (/ 2 <= IZR r / IZR den)%R).
  { intros H. apply IZR_le in H. rewrite mult_IZR in H. apply (Rmult_le_reg_r (IZR den)); [exact Q|]. unfold Rdiv. rewrite Rmult_assoc, Rinv_l by lra. lra. }
  destruct (2 * r <? den) eqn:C1; [|destruct (den <? 2 * r) eqn:C2; [|destruct (Z.even d)]].
  - apply Z.ltb_lt in C1. specialize (Lo ltac:(lia)). apply Rabs_le. lra.
  - apply Z.ltb_lt in C2. specialize (Hi ltac:(lia)). rewrite plus_IZR. apply Rabs_le. lra.
  - apply Z.ltb_ge in C1. apply Z.ltb_ge in C2. specialize (Lo ltac:(lia)). apply Rabs_le. lra.
  - apply Z.ltb_ge in C1. apply Z.ltb_ge in C2. specialize (Hi ltac:(lia)). rewrite plus_IZR. apply Rabs_le. lra.
Qed.

Lemma powerRZ_pos k : (0 < powerRZ 10 k)%R. Proof. apply powerRZ_lt. lra. Qed.
Lemma powerRZ_inv' a b : a = - b -> (powerRZ 10 a * powerRZ 10 b = 1)%R.
Proof. intros ->. rewrite <- powerRZ_add by lra. replace (- b + b) with 0 by lia. reflexivity. Qed.

(** The printed digits: D * 10^(X-5) is within half a unit of the sixth digit. *)
Lemma six_digits_spec p q D X : 0 < p -> 0 < q ->
  (powerRZ 10 (-330) <= IZR p / IZR q < powerRZ 10 320)%R -> six_digits p q = (D, X) ->
  100000 <= D < 1000000 /\ (Rabs (IZR D * powerRZ 10 (X - 5) - IZR p / IZR q) <= 5 / 1000000 * (IZR p / IZR q))%R /\
  (forall n j, (IZR p / IZR q = IZR n * powerRZ 10 j)%R -> n < 1000000 -> (IZR D * powerRZ 10 (X - 5) = IZR p / IZR q)%R).
Proof.
  intros Hp Hq (Hlo & Hhi) E. unfold six_digits in E.
  destruct (decade_spec 650 p q Hp Hq (-330) Hlo Hhi) as [L U]. set (X0 := decade 650 p q (-330)) in *. clearbody X0.
  set (v := (IZR p / IZR q)%R) in *.
  set (D0 := if 0 <=? 5 - X0 then nearest_even (p * 10 ^ (5 - X0)) q else nearest_even p (q * 10 ^ (X0 - 5))) in *.
  assert (Q : (0 < IZR q)%R) by (apply IZR_lt; exact Hq).
  assert (N : (Rabs (IZR D0 - v * powerRZ 10 (5 - X0)) <= / 2)%R).
  { unfold D0. destruct (0 <=? 5 - X0) eqn:C.
    - apply Z.leb_le in C. replace (v * powerRZ 10 (5 - X0))%R with (IZR (p * 10 ^ (5 - X0)) / IZR q)%R; [apply nearest_even_spec, Hq|].
      rewrite mult_IZR. rewrite (powerRZ_nat _ C), <- IZR_pow10, (Z2Nat.id _ C). unfold v. field. lra.
    - apply Z.leb_gt in C. assert (T : 0 < 10 ^ (X0 - 5)) by (apply Z.pow_pos_nonneg; lia).
      replace (v * powerRZ 10 (5 - X0))%R with (IZR p / IZR (q * 10 ^ (X0 - 5)))%R; [apply nearest_even_spec; nia|].
      rewrite mult_IZR. replace (5 - X0) with (- Z.of_nat (Z.to_nat (X0 - 5))) by lia. rewrite pneg.
      rewrite <- IZR_pow10, Z2Nat.id by lia. apply IZR_lt in T. unfold v. field. split; lra. }
  clearbody D0.
  assert (S1 : (powerRZ 10 (5 - X0) * powerRZ 10 (X0 - 5) = 1)%R) by (apply powerRZ_inv'; lia).
  assert (S2 : (powerRZ 10 X0 * powerRZ 10 (5 - X0) = 100000)%R).
  { rewrite <- powerRZ_add by lra. replace (X0 + (5 - X0)) with (Z.of_nat 5) by lia. rewrite <- pow_powerRZ. lra. }
  assert (S3 : (powerRZ 10 (X0 + 1) = 10 * powerRZ 10 X0)%R) by (rewrite powerRZ_add by lra; change (powerRZ 10 1) with (10 * 1)%R; lra).
  pose proof (powerRZ_pos (5 - X0)) as P1. pose proof (powerRZ_pos (X0 - 5)) as P2. pose proof (powerRZ_pos X0) as P3.
  assert (B : (100000 <= v * powerRZ 10 (5 - X0) < 1000000)%R).
  { rewrite S3 in U. split; [rewrite <- S2; apply Rmult_le_compat_r; lra|].
    replace 1000000%R with (10 * powerRZ 10 X0 * powerRZ 10 (5 - X0))%R by (rewrite Rmult_assoc, S2; lra). apply Rmult_lt_compat_r; lra. }
  apply Rabs_le_inv in N.
  assert (B0 : 100000 <= D0 <= 1000000).
  { assert (99999 < D0 < 1000001) by (split; apply lt_IZR; lra). lia. }
  set (T := powerRZ 10 (5 - X0)) in *. set (W := powerRZ 10 (X0 - 5)) in *.
  assert (V : v = (v * T * W)%R) by (rewrite Rmult_assoc, S1; lra).
  assert (Er : (Rabs (IZR D0 * W - v) <= 5 / 1000000 * v)%R).
  { replace (IZR D0 * W - v)%R with ((IZR D0 - v * T) * W)%R by (rewrite V at 2; lra). rewrite Rabs_mult, (Rabs_pos_eq W) by lra.
    assert (A : (Rabs (IZR D0 - v * T) <= / 2)%R) by (apply Rabs_le; lra).
    apply Rle_trans with (/ 2 * W)%R; [apply Rmult_le_compat_r; lra|]. rewrite V at 1.
    replace (5 / 1000000 * (v * T * W))%R with ((5 / 1000000 * (v * T)) * W)%R by lra. apply Rmult_le_compat_r; lra. }
  assert (Ex : forall n j, (v = IZR n * powerRZ 10 j)%R -> n < 1000000 -> (IZR D0 * W = v)%R).
  { intros n j Hv Hn.
    assert (Nn : 0 < n). { apply lt_IZR. destruct (Rlt_or_le 0 (IZR n)) as [K|K]; [exact K|exfalso]. pose proof (powerRZ_pos j). nra. }
    (* the exponent of the sixth digit is not above j *)
    assert (J : X0 - 5 <= j).
    { destruct (Z_le_gt_dec (X0 - 5) j) as [K|K]; [exact K|exfalso].
      assert (M : (powerRZ 10 j * 10 <= W)%R).
      { unfold W. replace (X0 - 5) with (j + (1 + Z.of_nat (Z.to_nat (X0 - 6 - j)))) by lia. rewrite !powerRZ_add by lra. rewrite <- pow_powerRZ.
        pose proof (powerRZ_pos j). assert (1 <= 10 ^ Z.to_nat (X0 - 6 - j))%R by (apply pow_R1_Rle; lra).
        change (powerRZ 10 1) with (10 * 1)%R. nra. }
      assert (IZR n <= 999999)%R by (apply IZR_le; lia).
      assert (K2 : (100000 * W <= v)%R). { rewrite V. apply Rmult_le_compat_r; lra. }
      pose proof (powerRZ_pos j) as Pj. rewrite Hv in K2. nra. }
    assert (I : exists z, (v * T = IZR z)%R).
    { exists (n * 10 ^ (j - (X0 - 5))). rewrite Hv, mult_IZR, Rmult_assoc. f_equal. unfold T. rewrite <- powerRZ_add by lra.
      replace (j + (5 - X0)) with (Z.of_nat (Z.to_nat (j - (X0 - 5)))) by lia. rewrite <- pow_powerRZ, <- IZR_pow10. f_equal. f_equal. lia. }
    destruct I as (z & I). rewrite I in N. assert (D0 = z).
    { assert (-1 < D0 - z < 1) by (split; apply lt_IZR; rewrite minus_IZR; lra). lia. }
    rewrite V, I. subst. reflexivity. }
  destruct (D0 =? 1000000) eqn:C; injection E as <- <-.
  - apply Z.eqb_eq in C. split; [lia|].
    assert (Eq : (IZR 100000 * powerRZ 10 (X0 + 1 - 5) = IZR D0 * W)%R).
    { rewrite C. unfold W. replace (X0 + 1 - 5) with (1 + (X0 - 5)) by lia. rewrite powerRZ_add by lra. change (powerRZ 10 1) with (10 * 1)%R. lra. }
    rewrite Eq. split; [exact Er|exact Ex].
  - apply Z.eqb_neq in C. split; [lia|]. split; [exact Er|exact Ex].
Qed.

(** -- the magnitude of a double -- *)
Lemma pow10_Z k : 0 <= k -> powerRZ 10 k = IZR (10 ^ k).
Proof. intros H. rewrite (powerRZ_nat _ H), <- IZR_pow10, (Z2Nat.id _ H). reflexivity. Qed.
Lemma lo_bound : (powerRZ 10 (-330) <= bpow radix2 (-1074))%R.
Proof.
  change (-330) with (- Z.of_nat 330). rewrite pneg. rewrite <- IZR_pow10. change (bpow radix2 (-1074)) with (/ IZR (2 ^ 1074))%R.
  apply Rinv_le; [apply IZR_lt; apply Z.ltb_lt; vm_compute; reflexivity|]. apply IZR_le. apply Z.leb_le. vm_compute. reflexivity.
Qed.
Lemma hi_bound : (bpow radix2 1024 < powerRZ 10 320)%R.
Proof. rewrite pow10_Z by lia. rewrite <- IZR_Zpower by lia. apply IZR_lt. apply Z.ltb_lt. vm_compute. reflexivity. Qed.

Definition mag_p (m : positive) (e : Z) : Z := if 0 <=? e then Z.pos m * 2 ^ e else Z.pos m.
Definition mag_q (e : Z) : Z := if 0 <=? e then 1 else 2 ^ (- e).
Lemma mag_pos m e : 0 < mag_p m e /\ 0 < mag_q e.
Proof.
  unfold mag_p, mag_q. destruct (0 <=? e) eqn:C; [apply Z.leb_le in C|apply Z.leb_gt in C].
  - assert (0 < 2 ^ e) by (apply Z.pow_pos_nonneg; lia). nia.
  - assert (0 < 2 ^ (- e)) by (apply Z.pow_pos_nonneg; lia). lia.
Qed.
Lemma mag_val m e : (IZR (mag_p m e) / IZR (mag_q e) = IZR (Z.pos m) * bpow radix2 e)%R.
Proof.
  unfold mag_p, mag_q. destruct (0 <=? e) eqn:C; [apply Z.leb_le in C|apply Z.leb_gt in C].
  - rewrite mult_IZR. change 2 with (radix_val radix2). rewrite IZR_Zpower by lia. unfold Rdiv. rewrite Rinv_1. lra.
  - change (2 ^ (- e)) with (radix_val radix2 ^ (- e)). rewrite IZR_Zpower by lia. rewrite bpow_opp. unfold Rdiv. rewrite Rinv_inv. reflexivity.
Qed.
Lemma mag_range s m e b : let x := B754_finite s m e b : f64 in
  (powerRZ 10 (-330) <= IZR (mag_p m e) / IZR (mag_q e) < powerRZ 10 320)%R /\
  fval x = (if s then - (IZR (mag_p m e) / IZR (mag_q e)) else IZR (mag_p m e) / IZR (mag_q e))%R.
Proof.
  intros x. rewrite mag_val. assert (V : fval x = (if s then - (IZR (Z.pos m) * bpow radix2 e) else IZR (Z.pos m) * bpow radix2 e)%R).
  { unfold x, fval, B2R, F2R. cbn [Fnum Fexp]. destruct s; cbn [cond_Zopp]; [|reflexivity]. rewrite opp_IZR. lra. }
  split; [|exact V].
  pose proof (bpow_gt_0 radix2 e) as Pe. split.
  - apply Rle_trans with (1 := lo_bound). apply Rle_trans with (1 * bpow radix2 e)%R.
    + rewrite Rmult_1_l. apply bpow_le. pose proof b as b'. unfold SpecFloat.bounded in b'. apply andb_prop in b'. destruct b' as [b' _].
      unfold SpecFloat.canonical_mantissa in b'. apply Zeq_bool_eq in b'.
      unfold SpecFloat.fexp, SpecFloat.emin in b'. lia.
    + apply Rmult_le_compat_r; [lra|]. apply IZR_le. lia.
  - apply Rle_lt_trans with (2 := hi_bound). left. pose proof (fval_bound x eq_refl) as B. rewrite V in B.
    destruct s; [rewrite Rabs_Ropp in B|]; rewrite Rabs_pos_eq in B; try exact B; apply Rmult_le_pos; try lra; apply IZR_le; lia.
Qed.

Lemma magnitude_decimal p q : 0 < p -> 0 < q -> (powerRZ 10 (-330) <= IZR p / IZR q < powerRZ 10 320)%R ->
  exists r, unsigned (magnitude_text p q) = Some r /\ (Rabs (r - IZR p / IZR q) <= 5 / 1000000 * (IZR p / IZR q))%R /\
    (forall n j, (IZR p / IZR q = IZR n * powerRZ 10 j)%R -> n < 1000000 -> r = (IZR p / IZR q)%R) /\
    exists c t, magnitude_text p q = c :: t /\ isdig c.
Proof.
  intros Hp Hq B. unfold magnitude_text. destruct (six_digits p q) as [D X] eqn:E.
  destruct (six_digits_spec p q D X Hp Hq B E) as (HD & Er & Ex). exists (IZR D * powerRZ 10 (X - 5))%R.
  pose proof (dec_dig D ltac:(lia)) as Hd. pose proof (dec_length6 D HD) as L.
  assert (F : forall k t, (0 < k)%nat -> exists c t', firstn k (dec D) ++ t = c :: t' /\ isdig c).
  { intros k t Hk. destruct (dec D) as [|c l]; [discriminate L|]. inversion Hd. destruct k; [lia|]. cbn [firstn app]. eauto. }
  destruct ((-4 <=? X) && (X <? 6)) eqn:C.
  - apply andb_prop in C. destruct C as [C1 C2]. apply Z.leb_le in C1. apply Z.ltb_lt in C2.
    rewrite fixed_unsigned by (try exact HD; lia). split; [reflexivity|]. split; [exact Er|]. split; [exact Ex|].
    unfold fixed_text. destruct (0 <=? X) eqn:C; [|cbn [app]; eexists; eexists; split; [reflexivity|exists 0; reflexivity]].
    apply Z.leb_le in C. apply F. lia.
  - rewrite exp_unsigned by exact HD. split; [reflexivity|]. split; [exact Er|]. split; [exact Ex|]. unfold exp_text. apply F. lia.
Qed.

Lemma decimal_pos c t : isdig c -> decimal (c :: t) = unsigned (c :: t).
Proof.
  intros (d & Hd). unfold decimal. destruct (Ascii.eqb_spec c "-"%char) as [->|N]; [discriminate Hd|reflexivity].
Qed.

Lemma number_decimal x : fisfin x = true -> exists r, decimal (number_text x) = Some r /\
  (Rabs (r - fval x) <= 5 / 1000000 * Rabs (fval x))%R /\
  (forall n j, fval x = (IZR n * powerRZ 10 j)%R -> -1000000 < n < 1000000 -> r = fval x).
Proof.
  intros Fx. destruct x as [s|s| |s m e b]; try discriminate Fx.
  - exists 0%R. split.
    + destruct s; [change (Some (- IZR 0)%R = Some (IZR 0)); f_equal; lra|reflexivity].
    + assert (V : fval (B754_zero s : f64) = 0%R) by reflexivity. rewrite V. split; [rewrite Rminus_0_r, Rabs_R0; lra|reflexivity].
  - destruct (mag_pos m e) as [Pp Pq]. destruct (mag_range s m e b) as [B V].
    destruct (magnitude_decimal _ _ Pp Pq B) as (r & U & Er & Ex & c & t & T & C).
    assert (TX : number_text (B754_finite s m e b) = sign_text s ++ magnitude_text (mag_p m e) (mag_q e)).
    { unfold number_text, mag_p, mag_q. destruct (0 <=? e); reflexivity. }
    rewrite TX, V. set (v := (IZR (mag_p m e) / IZR (mag_q e))%R) in *.
    assert (Pv : (0 < v)%R) by (pose proof (powerRZ_pos (-330)); lra). clearbody v.
    destruct s; cbn [sign_text app].
    + exists (- r)%R. unfold decimal. change (Ascii.eqb "-" "-") with true. cbv iota. rewrite U. split; [reflexivity|]. split.
      * rewrite Rabs_Ropp, (Rabs_pos_eq v) by lra. replace (- r - - v)%R with (- (r - v))%R by lra. rewrite Rabs_Ropp. exact Er.
      * intros n j Hv Hn. rewrite (Ex (- n) j); [reflexivity| |lia]. rewrite opp_IZR. lra.
    + exists r. rewrite T, (decimal_pos c t C), <- T. split; [exact U|]. split.
      * rewrite (Rabs_pos_eq v) by lra. exact Er.
      * intros n j Hv Hn. apply (Ex n j); [exact Hv|lia].
Qed.

(** -- characters -- *)
Definition safe (c : ascii) : bool := negb (Ascii.eqb c "," || Ascii.eqb c "#" || Ascii.eqb c (ascii_of_nat 10) || Ascii.eqb c " ").
Definition safe_text (l : list ascii) : Prop := forall c, In c l -> safe c = true.
Lemma isdig_safe c : isdig c -> safe c = true.
Proof.
  intros (d & H). unfold safe. destruct (Ascii.eqb_spec c ",") as [->|]; [discriminate H|].
  destruct (Ascii.eqb_spec c "#") as [->|]; [discriminate H|].
  destruct (Ascii.eqb_spec c (ascii_of_nat 10)) as [->|]; [discriminate H|].
  destruct (Ascii.eqb_spec c " ") as [->|]; [discriminate H|]. reflexivity.
Qed.
Lemma safe_app a b : safe_text a -> safe_text b -> safe_text (a ++ b).
Proof. intros A B c H. apply in_app_or in H. destruct H; auto. Qed.
Lemma safe_cons c b : safe c = true -> safe_text b -> safe_text (c :: b).
Proof. intros A B x [<-|H]; auto. Qed.
Lemma dig_safe l : Forall isdig l -> safe_text l.
Proof. intros H c K. rewrite Forall_forall in H. apply isdig_safe, H, K. Qed.
Lemma fraction_safe l : Forall isdig l -> safe_text (fraction l).
Proof. intros H c K. destruct (fraction_chars _ _ H K) as [->|D]; [reflexivity|apply isdig_safe, D]. Qed.
Lemma magnitude_safe p q : 0 < p -> 0 < q -> (powerRZ 10 (-330) <= IZR p / IZR q < powerRZ 10 320)%R -> safe_text (magnitude_text p q).
Proof.
  intros Hp Hq B. unfold magnitude_text. destruct (six_digits p q) as [D X] eqn:E.
  destruct (six_digits_spec p q D X Hp Hq B E) as (HD & _). pose proof (dec_dig D ltac:(lia)) as Hd.
  destruct ((-4 <=? X) && (X <? 6)).
  - unfold fixed_text. destruct (0 <=? X).
    + apply safe_app; [apply dig_safe, firstn_dig, Hd|apply fraction_safe, skipn_dig, Hd].
    + apply safe_cons; [reflexivity|]. apply fraction_safe, Forall_app. split; [apply zeros_dig|exact Hd].
  - unfold exp_text. apply safe_app; [apply dig_safe, firstn_dig, Hd|]. apply safe_app; [apply fraction_safe, skipn_dig, Hd|].
    apply safe_cons; [reflexivity|]. apply safe_cons; [destruct (X <? 0); reflexivity|]. apply dig_safe, two_digits_dig. lia.
Qed.
Lemma number_safe x : number_text x <> [] /\ safe_text (number_text x).
Proof.
  destruct x as [s|s| |s m e b].
  - split; [destruct s; discriminate|]. intros c. destruct s; cbn; intuition (subst; reflexivity).
  - split; [destruct s; discriminate|]. intros c. destruct s; cbn; intuition (subst; reflexivity).
  - split; [discriminate|]. intros c. cbn. intuition (subst; reflexivity).
  - destruct (mag_pos m e) as [Pp Pq]. destruct (mag_range s m e b) as [B V].
    assert (TX : number_text (B754_finite s m e b) = sign_text s ++ magnitude_text (mag_p m e) (mag_q e)).
    { unfold number_text, mag_p, mag_q. destruct (0 <=? e); reflexivity. }
    rewrite TX. split.
    + destruct (magnitude_decimal _ _ Pp Pq B) as (r & _ & _ & _ & c & t & T & _). rewrite T. destruct s; discriminate.
    + apply safe_app; [|exact (magnitude_safe _ _ Pp Pq B)]. intros c. destruct s; cbn; intuition (subst; reflexivity).
Qed.
Lemma safe_no_comma l : safe_text l -> ~ In ","%char l. Proof. intros H K. specialize (H _ K). discriminate H. Qed.
Lemma safe_no_newline l : safe_text l -> ~ In (ascii_of_nat 10) l. Proof. intros H K. specialize (H _ K). discriminate H. Qed.
Lemma dec_safe n : 0 <= n -> safe_text (dec n). Proof. intros H. apply dig_safe, dec_dig, H. Qed.
Lemma dec_decimal (n : nat) : decimal (dec (Z.of_nat n)) = Some (INR n).
Proof.
  pose proof (dec_dig (Z.of_nat n) ltac:(lia)) as Hd. pose proof (dec_nonempty (Z.of_nat n)) as N.
  pose proof (dec_val (Z.of_nat n) ltac:(lia)) as V. destruct (dec (Z.of_nat n)) as [|c t]; [contradiction|].
  rewrite decimal_pos by (inversion Hd; assumption).
  rewrite unsigned_plain; [|intros x Hx; right; rewrite Forall_forall in Hd; apply Hd, Hx].
  unfold mantissa. rewrite (split_none _ _ (dig_not "."%char _ Hd eq_refl)), (whole_dv _ Hd N), V, <- INR_IZR_INZ. reflexivity.
Qed.

(** -- lines and fields of a written file -- *)
Lemma split_lines c (ls : list (list ascii)) : (forall l, In l ls -> ~ In c l) ->
  split c (flat_map (fun l => l ++ [c]) ls) = ls ++ [[]].
Proof.
  induction ls as [|l ls IH]; intros H; [reflexivity|]. cbn [flat_map]. rewrite <- app_assoc. cbn [app].
  rewrite split_at by (apply H; left; reflexivity). rewrite IH; [reflexivity|]. intros x Hx. apply H. right. exact Hx.
Qed.
Lemma drop_last ls : drop_last_empty (ls ++ [[]]) = ls.
Proof.
  induction ls as [|l ls IH]; [reflexivity|]. cbn [app drop_last_empty]. destruct l as [|a l]; [|rewrite IH; reflexivity].
  rewrite IH. destruct ls; reflexivity.
Qed.
Lemma data_lines_of ls : (forall l, In l ls -> ~ In (ascii_of_nat 10) l /\ starts_with_hash l = false) ->
  data_lines (flat_map (fun l => l ++ [ascii_of_nat 10]) ls) = ls.
Proof.
  intros H. unfold data_lines, text_lines. rewrite split_lines by (intros l Hl; apply (H l Hl)). rewrite drop_last.
  induction ls as [|l ls IH]; [reflexivity|]. cbn [filter]. rewrite (proj2 (H l (or_introl eq_refl))). cbn [negb]. f_equal. apply IH.
  intros x Hx. apply H. right. exact Hx.
Qed.
Lemma fields_of ts : (forall t, In t ts -> safe_text t) -> line_fields (flat_map (fun t => t ++ [comma]) ts) = ts ++ [[]].
Proof. intros H. unfold line_fields. apply (split_lines ","%char). intros l Hl. apply safe_no_comma, H, Hl. Qed.

Definition row_line (ts : list (list ascii)) : list ascii := flat_map (fun t => t ++ [comma]) ts.
Lemma row_line_ok ts : (forall t, In t ts -> t <> [] /\ safe_text t) ->
  ~ In (ascii_of_nat 10) (row_line ts) /\ starts_with_hash (row_line ts) = false.
Proof.
  intros H. split.
  - intros K. apply in_flat_map in K. destruct K as (t & Ht & K). apply in_app_or in K. destruct K as [K|[K|[]]].
    + exact (safe_no_newline _ (proj2 (H t Ht)) K).
    + discriminate K.
  - destruct ts as [|t ts]; [reflexivity|]. destruct (H t (or_introl eq_refl)) as [N S]. cbn [row_line flat_map]. destruct t as [|c t]; [contradiction|].
    cbn [app starts_with_hash]. specialize (S c (or_introl eq_refl)). unfold safe in S. destruct (Ascii.eqb_spec c (ascii_of_nat 35)) as [->|]; [discriminate S|reflexivity].
Qed.

Lemma vectors_lines rows :
  data_lines (vectors_file rows) = map (fun row => row_line (map number_text row)) rows.
Proof.
  transitivity (data_lines (flat_map (fun l => l ++ [ascii_of_nat 10]) (map (fun row => row_line (map number_text row)) rows))).
  - f_equal. unfold vectors_file. induction rows as [|r rows IH]; [reflexivity|]. cbn [flat_map map]. rewrite IH. f_equal.
    unfold row_text, row_line. f_equal. clear. induction r as [|x r IH]; [reflexivity|]. cbn [flat_map map]. rewrite IH. reflexivity.
  - apply data_lines_of. intros l Hl. apply in_map_iff in Hl. destruct Hl as (row & <- & _). apply row_line_ok.
    intros t Ht. apply in_map_iff in Ht. destruct Ht as (x & <- & _). apply number_safe.
Qed.
Lemma vectors_fields rows :
  map line_fields (data_lines (vectors_file rows)) = map (fun row => map number_text row ++ [[]]) rows.
Proof.
  rewrite vectors_lines, map_map. apply map_ext. intros row. apply fields_of. intros t Ht. apply in_map_iff in Ht.
  destruct Ht as (x & <- & _). apply number_safe.
Qed.

(** -- edges and vertex numbers -- *)
Lemma edges_lines es :
  data_lines (edges_file es) = map (fun e : nat * nat => dec (Z.of_nat (fst e)) ++ comma :: dec (Z.of_nat (snd e))) es.
Proof.
  transitivity (data_lines (flat_map (fun l => l ++ [ascii_of_nat 10]) (map (fun e : nat * nat => dec (Z.of_nat (fst e)) ++ comma :: dec (Z.of_nat (snd e))) es))).
  - f_equal. unfold edges_file. induction es as [|e es IH]; [reflexivity|]. cbn [flat_map map]. rewrite IH. f_equal. rewrite <- app_assoc. reflexivity.
  - apply data_lines_of. intros l Hl. apply in_map_iff in Hl. destruct Hl as (e & <- & _).
    pose proof (dec_safe (Z.of_nat (fst e)) ltac:(lia)) as S1. pose proof (dec_safe (Z.of_nat (snd e)) ltac:(lia)) as S2. split.
    + intros K. apply in_app_or in K. destruct K as [K|[K|K]]; [exact (safe_no_newline _ S1 K)|discriminate K|exact (safe_no_newline _ S2 K)].
    + pose proof (dec_nonempty (Z.of_nat (fst e))) as N. destruct (dec (Z.of_nat (fst e))) as [|c t]; [contradiction|]. cbn [app starts_with_hash].
      specialize (S1 c (or_introl eq_refl)). destruct (Ascii.eqb_spec c (ascii_of_nat 35)) as [->|]; [discriminate S1|reflexivity].
Qed.
Lemma edges_fields es :
  map line_fields (data_lines (edges_file es)) = map (fun e : nat * nat => [dec (Z.of_nat (fst e)); dec (Z.of_nat (snd e))]) es.
Proof.
  rewrite edges_lines, map_map. apply map_ext. intros e. unfold line_fields.
  rewrite (split_at ","%char) by (apply safe_no_comma, dec_safe; lia). rewrite split_none by (apply safe_no_comma, dec_safe; lia). reflexivity.
Qed.
Lemma ids_fields ids : line_fields (ids_file ids) = map (fun i => dec (Z.of_nat i)) ids ++ [[]] /\ ~ In (ascii_of_nat 10) (ids_file ids).
Proof.
  assert (E : ids_file ids = row_line (map (fun i => dec (Z.of_nat i)) ids)).
  { unfold ids_file, row_line. induction ids as [|i ids IH]; [reflexivity|]. cbn [flat_map map]. rewrite IH. reflexivity. }
  rewrite E. split.
  - apply fields_of. intros t Ht. apply in_map_iff in Ht. destruct Ht as (i & <- & _). apply dec_safe. lia.
  - apply row_line_ok. intros t Ht. apply in_map_iff in Ht. destruct Ht as (i & <- & _). split; [apply dec_nonempty|apply dec_safe; lia].
Qed.

(** -- reading the vectors back -- *)
Lemma rows_read (stof : list ascii -> stof_result) (rd : f64 -> f64 -> Prop) rows : stof [] = Invalid ->
  (forall row x, In row rows -> In x row -> exists y, stof (number_text x) = Value y /\ rd x y) ->
  exists back, map (fun l => flat_map (fun f => match stof f with Value x => [x] | _ => [] end) (line_fields l)) (data_lines (vectors_file rows)) = back /\
    Forall2 (Forall2 rd) rows back /\
    (forall l f, In l (data_lines (vectors_file rows)) -> In f (line_fields l) -> stof f <> Range).
Proof.
  intros S0 H. eexists. split; [reflexivity|]. rewrite <- (map_map line_fields (fun fs => flat_map (fun f => match stof f with Value x => [x] | _ => [] end) fs)).
  rewrite vectors_fields, map_map. split.
  - induction rows as [|row rows IH]; [constructor|]. cbn [map]. constructor; [|apply IH; intros r x Hr Hx; apply (H r x); [right|]; assumption].
    assert (Hx : forall x, In x row -> exists y, stof (number_text x) = Value y /\ rd x y) by (intros x Hx; apply (H row x); [left; reflexivity|exact Hx]).
    clear - Hx S0. induction row as [|x row IH]; [cbn; rewrite S0; constructor|]. cbn [map app flat_map].
    destruct (Hx x (or_introl eq_refl)) as (y & -> & R). cbn [app]. constructor; [exact R|]. apply IH. intros z Hz. apply Hx. right. exact Hz.
  - intros l f Hl Hf. apply (in_map line_fields) in Hl. rewrite vectors_fields in Hl. apply in_map_iff in Hl. destruct Hl as (row & E & Hr).
    rewrite <- E in Hf. apply in_app_or in Hf. destruct Hf as [Hf|[<-|[]]]; [|rewrite S0; discriminate].
    apply in_map_iff in Hf. destruct Hf as (x & <- & Hx). destruct (H row x Hr Hx) as (y & -> & _). discriminate.
Qed.

(** -- the segment file -- *)
Lemma omap_map {A B} (f : A -> outcome B) (g : A -> B) l : (forall a, In a l -> f a = Ok (g a)) -> omap f l = Ok (map g l).
Proof.
  induction l as [|a l IH]; intros H; [reflexivity|]. cbn [omap map]. rewrite (H a (or_introl eq_refl)). cbn [obind].
  rewrite IH by (intros x Hx; apply H; right; exact Hx). reflexivity.
Qed.
Lemma idx_nth {A} (l : list A) i d : (i < length l)%nat -> idx l i = Ok (nth i l d).
Proof. intros H. unfold idx. rewrite (nth_error_nth' l d H). reflexivity. Qed.
Definition seg_line (row : list f64) : list ascii :=
  match row with
  | [x; y; lo; mi; hi] => number_text x ++ comma :: number_text y ++ comma :: number_text lo ++ comma :: number_text mi ++ comma :: number_text hi
  | _ => []
  end.
Lemma lengths_nth (a b : list (list f64)) j : map (@length f64) a = map (@length f64) b ->
  length a = length b /\ length (nth j a []) = length (nth j b []).
Proof.
  intros H. split; [apply (f_equal (@length nat)) in H; rewrite !map_length in H; exact H|].
  rewrite <- !(map_nth (@length f64)). rewrite H. reflexivity.
Qed.
Lemma plane_text x fs : same_shape fs ->
  plane_lines (x, fs) = Ok (flat_map (fun r => seg_line r ++ [newline]) (segment_rows [(x, fs)])).
Proof.
  intros (SL & SU & SM). unfold plane_lines. cbn [fst snd].
  erewrite omap_map with (g := fun j => List.concat (map (fun k => seg_line [x; nth j (fty fs) fzero; cell (fxL fs) j k; cell (fxM fs) j k; cell (fxU fs) j k] ++ [newline])
    (seq 0 (length (nth j (fxM fs) []))))).
  - cbn [obind]. f_equal. unfold segment_rows. cbn [flat_map fst snd]. rewrite app_nil_r.
    generalize (seq 0 (length (fty fs))). intros js. induction js as [|j js IH]; [reflexivity|].
    cbn [map List.concat flat_map]. rewrite flat_map_app. rewrite IH. f_equal. rewrite flat_map_concat_map, map_map. reflexivity.
  - intros j Hj. apply in_seq in Hj. destruct (lengths_nth _ _ j SL) as [L1 L2]. destruct (lengths_nth _ _ j SU) as [U1 U2].
    rewrite (idx_nth (fxM fs) j []) by lia. cbn [obind].
    erewrite omap_map; [cbn [obind]; reflexivity|]. intros k Hk. apply in_seq in Hk. unfold segment_line.
    rewrite (idx_nth (fty fs) j fzero) by lia. cbn [obind].
    rewrite (idx_nth (fxL fs) j []) by lia. cbn [obind]. rewrite (idx_nth (nth j (fxL fs) []) k fzero) by lia. cbn [obind].
    rewrite (idx_nth (fxM fs) j []) by lia. cbn [obind]. rewrite (idx_nth (nth j (fxM fs) []) k fzero) by lia. cbn [obind].
    rewrite (idx_nth (fxU fs) j []) by lia. cbn [obind]. rewrite (idx_nth (nth j (fxU fs) []) k fzero) by lia. cbn [obind].
    f_equal. unfold seg_line, cell. rewrite <- ?app_assoc. cbn [app]. rewrite <- ?app_assoc. cbn [app]. rewrite <- ?app_assoc. cbn [app].
    rewrite <- ?app_assoc. cbn [app]. rewrite <- ?app_assoc. reflexivity.
Qed.
Lemma segment_rows_app a b : segment_rows (a ++ b) = segment_rows a ++ segment_rows b.
Proof. unfold segment_rows. apply flat_map_app. Qed.
Lemma segments_text planes : Forall (fun p => same_shape (snd p)) planes ->
  segments_file planes = Ok (flat_map (fun r => seg_line r ++ [newline]) (segment_rows planes)).
Proof.
  intros H. unfold segments_file. rewrite (omap_map _ (fun p => flat_map (fun r => seg_line r ++ [newline]) (segment_rows [p]))).
  - cbn [obind]. f_equal. clear H. induction planes as [|p planes IH]; [reflexivity|]. cbn [map List.concat]. rewrite IH.
    change (p :: planes) with ([p] ++ planes). rewrite segment_rows_app, flat_map_app. reflexivity.
  - intros [x fs] Hp. rewrite Forall_forall in H. apply plane_text. exact (H _ Hp).
Qed.
Lemma rows_five planes row : In row (segment_rows planes) -> exists x y lo mi hi, row = [x; y; lo; mi; hi].
Proof.
  intros H. unfold segment_rows in H. apply in_flat_map in H. destruct H as (p & _ & H). apply in_flat_map in H. destruct H as (j & _ & H).
  apply in_map_iff in H. destruct H as (k & <- & _). repeat eexists.
Qed.
Lemma segments_fields planes : Forall (fun p => same_shape (snd p)) planes -> exists text, segments_file planes = Ok text /\
  map line_fields (data_lines text) = map (map number_text) (segment_rows planes).
Proof.
  intros H. eexists. split; [exact (segments_text planes H)|]. clear H.
  transitivity (map line_fields (map seg_line (segment_rows planes))).
  - f_equal. transitivity (data_lines (flat_map (fun l => l ++ [ascii_of_nat 10]) (map seg_line (segment_rows planes)))).
    + f_equal. rewrite !flat_map_concat_map, map_map. reflexivity.
    + apply data_lines_of. intros l Hl. apply in_map_iff in Hl. destruct Hl as (row & <- & Hr).
      destruct (rows_five _ _ Hr) as (x & y & lo & mi & hi & ->). cbn [seg_line].
      destruct (number_safe x) as [N S]. split.
      * intros K. assert (Q : forall v, ~ In (ascii_of_nat 10) (number_text v)) by (intros v; apply safe_no_newline, number_safe).
        repeat (apply in_app_or in K; destruct K as [K|[K|K]]; [exact (Q _ K)|discriminate K|]). exact (Q _ K).
      * destruct (number_text x) as [|c t]; [contradiction|]. cbn [app starts_with_hash].
        specialize (S c (or_introl eq_refl)). destruct (Ascii.eqb_spec c (ascii_of_nat 35)) as [->|]; [discriminate S|reflexivity].
  - rewrite map_map. apply map_ext_in. intros row Hr. destruct (rows_five _ _ Hr) as (x & y & lo & mi & hi & ->). cbn [seg_line map].
    unfold line_fields. change comma with ","%char.
    assert (Q : forall v, ~ In ","%char (number_text v)) by (intros v; apply safe_no_comma, number_safe).
    rewrite !(split_at ","%char) by apply Q. rewrite split_none by apply Q. reflexivity.
Qed.
