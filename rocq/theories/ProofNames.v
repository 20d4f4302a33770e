(** Lemmas for latex names: decimal strings and their injectivity. *)
From Coq Require Import List String Ascii Bool ZArith QArith Lia Decimal DecimalString DecimalZ DecimalPos.
From Verif Require Import Base ModelNames.
Import ListNotations.
Local Open Scope list_scope.

Notation la := list_ascii_of_string.
Lemma la_app : forall a b, la (a ++ b)%string = la a ++ la b.
Proof. induction a as [|c a IH]; intros b; [reflexivity|]. cbn. rewrite IH. auto. Qed.
Lemma la_inj : forall a b, la a = la b -> a = b.
Proof. intros a b H. rewrite <- (string_of_list_ascii_of_string a), <- (string_of_list_ascii_of_string b), H. auto. Qed.

Definition digit (c : ascii) : bool := existsb (Ascii.eqb c) (la "0123456789").
Lemma uint_digits : forall d c, In c (la (NilEmpty.string_of_uint d)) -> digit c = true.
Proof. induction d; intros c H; cbn in H; [destruct H|..]; destruct H as [<-|H]; auto. Qed.
Lemma uint0_digits : forall d c, In c (la (NilZero.string_of_uint d)) -> digit c = true.
Proof. intros [] c H; try (eapply uint_digits; exact H). destruct H as [<-|[]]; auto. Qed.
Lemma uint0_nonempty : forall d, la (NilZero.string_of_uint d) <> [].
Proof. intros []; discriminate. Qed.

Lemma str_int_inj : forall a b, str_int a = str_int b -> a = b.
Proof.
  intros a b H. unfold str_int in H.
  assert (Hn : forall z, Z.to_int z <> Pos Nil /\ Z.to_int z <> Neg Nil).
  { intros [|p|p]; cbn; split; try discriminate; intros He; injection He as He; apply (Unsigned.to_uint_nonnil p); auto. }
  apply (f_equal NilZero.int_of_string) in H. rewrite !NilZero.isi in H by apply Hn.
  injection H as H. apply (f_equal Z.of_int) in H. rewrite !DecimalZ.of_to in H. auto.
Qed.
Lemma str_int_digits : forall z, (0 <= z)%Z -> (forall c, In c (la (str_int z)) -> digit c = true) /\ la (str_int z) <> [].
Proof.
  intros z Hz. unfold str_int. destruct z as [|p|p]; [| |lia]; cbn [Z.to_int NilZero.string_of_int];
    (split; [apply uint0_digits|apply uint0_nonempty]).
Qed.
Lemma str_int_chars : forall z c, In c (la (str_int z)) -> digit c = true \/ c = "-"%char.
Proof.
  intros z c H. unfold str_int in H. destruct (Z.to_int z) as [d|d]; cbn [NilZero.string_of_int] in H.
  - left. eapply uint0_digits; eauto.
  - destruct H as [<-|H]; auto. left. eapply uint0_digits; eauto.
Qed.

(** ** Padded digits *)
Lemma one_digit : forall d, (0 <= d < 10)%Z -> exists c, la (str_int d) = [c] /\ digit c = true.
Proof.
  intros d Hd. assert (H : (d = 0 \/ d = 1 \/ d = 2 \/ d = 3 \/ d = 4 \/ d = 5 \/ d = 6 \/ d = 7 \/ d = 8 \/ d = 9)%Z) by lia.
  repeat (destruct H as [->|H]; [eexists; split; [vm_compute; reflexivity|reflexivity]|]).
  subst d. eexists; split; [vm_compute; reflexivity|reflexivity].
Qed.
Lemma pad_length : forall n z, length (la (pad_digits n z)) = n.
Proof.
  induction n as [|n IH]; intros z; auto. cbn [pad_digits]. rewrite la_app, app_length, IH.
  destruct (one_digit (z mod 10)) as (c & -> & _); [apply Z.mod_pos_bound; lia|]. cbn. lia.
Qed.
Lemma pad_chars : forall n z c, In c (la (pad_digits n z)) -> digit c = true.
Proof.
  induction n as [|n IH]; intros z c H; [destruct H|]. cbn [pad_digits] in H. rewrite la_app in H.
  apply in_app_or in H as [H|H]; [eapply IH; eauto|].
  apply (str_int_digits (z mod 10)) in H; auto. apply Z.mod_pos_bound. lia.
Qed.
Lemma pad_inj : forall n a b, pad_digits n a = pad_digits n b -> (a mod 10 ^ Z.of_nat n = b mod 10 ^ Z.of_nat n)%Z.
Proof.
  induction n as [|n IH]; intros a b H; [cbn; rewrite !Z.mod_1_r; auto|].
  cbn [pad_digits] in H. apply (f_equal la) in H. rewrite !la_app in H.
  destruct (one_digit (a mod 10)) as (c & Hc & _); [apply Z.mod_pos_bound; lia|].
  destruct (one_digit (b mod 10)) as (c' & Hc' & _); [apply Z.mod_pos_bound; lia|].
  rewrite Hc, Hc' in H. apply app_inj_tail in H as [H1 H2]. subst c'.
  rewrite <- Hc in Hc'. apply la_inj, str_int_inj in Hc'. apply la_inj, IH in H1.
  rewrite Nat2Z.inj_succ, Z.pow_succ_r by lia.
  rewrite !Z.rem_mul_r by lia. rewrite H1, Hc'. auto.
Qed.

(** ** Stripping *)
Definition strip (c : ascii) (l : list ascii) : list ascii := rev (drop_char c (rev l)).
Lemma rstrip_la : forall c s, la (rstrip c s) = strip c (la s).
Proof. intros. unfold rstrip, strip. rewrite list_ascii_of_string_of_list_ascii. auto. Qed.
Lemma strip_snoc_eq : forall c l, strip c (l ++ [c]) = strip c l.
Proof. intros. unfold strip. rewrite rev_app_distr. cbn. rewrite Ascii.eqb_refl. auto. Qed.
Lemma strip_snoc_ne : forall c x l, x <> c -> strip c (l ++ [x]) = l ++ [x].
Proof.
  intros c x l H. unfold strip. rewrite rev_app_distr. cbn.
  destruct (Ascii.eqb_spec x c); [congruence|]. cbn. rewrite rev_involutive. auto.
Qed.
(** Stripping zeros of digits after a point. *)
Lemma strip_digits : forall pre F, exists F' k, F = F' ++ repeat "0"%char k /\
    strip "0" (pre ++ "."%char :: F) = pre ++ "."%char :: F' /\ (F' = [] \/ exists u x, F' = u ++ [x] /\ In x F /\ x <> "0"%char).
Proof.
  intros pre F. induction F as [|x F IH] using rev_ind.
  - exists [], 0%nat. split; auto. split; auto. apply strip_snoc_ne. discriminate.
  - replace (pre ++ "."%char :: F ++ [x]) with ((pre ++ "."%char :: F) ++ [x]) by (rewrite <- app_assoc; auto).
    destruct (Ascii.eqb_spec x "0"%char) as [->|Hx].
    + destruct IH as (F' & k & I1 & I2 & I3). exists F', (S k). rewrite strip_snoc_eq. split; [|split; auto].
      * rewrite I1, <- app_assoc. f_equal. clear. induction k; auto. cbn. f_equal. auto.
      * destruct I3 as [->|(u & y & -> & Hy & Hn)]; [left; auto|right]. exists u, y. split; auto. split; auto. apply in_or_app; auto.
    + exists (F ++ [x]), 0%nat. split; [rewrite app_nil_r; auto|]. split.
      * rewrite strip_snoc_ne by auto. rewrite <- app_assoc. auto.
      * right. exists F, x. split; auto. split; auto. apply in_or_app. right. left; auto.
Qed.

Lemma split_sep : forall c (I J X Y : list ascii), ~ In c I -> ~ In c J ->
    (X = [] \/ exists t, X = c :: t) -> (Y = [] \/ exists t, Y = c :: t) ->
    I ++ X = J ++ Y -> I = J /\ X = Y.
Proof.
  induction I as [|x I IH]; intros J X Y HI HJ HX HY H.
  - destruct J as [|y J]; auto. exfalso. cbn in H. subst X. destruct HX as [HX|[t HX]]; [discriminate|].
    injection HX as -> _. apply HJ. left; auto.
  - destruct J as [|y J].
    + exfalso. cbn in H. subst Y. destruct HY as [HY|[t HY]]; [discriminate|]. injection HY as -> _. apply HI. left; auto.
    + cbn in H. injection H as -> H. destruct (IH J X Y) as [-> ->]; auto; intros Hc; [apply HI|apply HJ]; right; auto.
Qed.

Lemma digit_not : forall c, digit c = true -> c <> "."%char /\ c <> "-"%char /\ c <> "\"%char.
Proof.
  intros c H. repeat split; intros ->; discriminate H.
Qed.

Definition percent_str (q : Q) : string := rstrip "." (rstrip "0" (percent_f q)).
Definition sign_chars (b : bool) : list ascii := if b then ["-"%char] else [].

Lemma percent_str_form : forall q, (0 <= micro q)%Z ->
    exists X k, la (percent_str q) = (sign_chars (negative q) ++ la (str_int (micro q / millionths))) ++ X /\
      (X = [] /\ la (pad_digits 6 (micro q mod millionths)) = repeat "0"%char k \/
       exists F', X = "."%char :: F' /\ la (pad_digits 6 (micro q mod millionths)) = F' ++ repeat "0"%char k) /\
      forall c, In c X -> digit c = true \/ c = "."%char.
Proof.
  intros q Hq.
  set (I := sign_chars (negative q) ++ la (str_int (micro q / millionths))).
  set (F := la (pad_digits 6 (micro q mod millionths))).
  assert (Hn : (0 <= micro q / millionths)%Z) by (apply Z.div_pos; unfold millionths; lia).
  destruct (str_int_digits _ Hn) as [D1 D2].
  assert (Hf : la (percent_f q) = I ++ "."%char :: F).
  { unfold percent_f, I, F. rewrite !la_app. rewrite <- app_assoc. f_equal.
    destruct (negative q); auto. }
  assert (HF : forall c, In c F -> digit c = true) by (intros c; apply pad_chars).
  destruct (strip_digits I F) as (F' & k & S1 & S2 & S3).
  assert (Hp : la (percent_str q) = strip "." (I ++ "."%char :: F')).
  { unfold percent_str. rewrite !rstrip_la, Hf, S2. auto. }
  destruct S3 as [->|(u & x & -> & Hx & _)].
  - exists [], k. split.
    + rewrite Hp. replace (I ++ ["."%char]) with (I ++ ["."%char]) by auto. rewrite strip_snoc_eq, app_nil_r.
      assert (HI : I <> []) by (unfold I; destruct (la (str_int _)); [congruence|destruct (sign_chars _); discriminate]).
      destruct (exists_last HI) as (v & y & Hv). rewrite Hv. apply strip_snoc_ne.
      assert (Hy : In y I) by (rewrite Hv; apply in_or_app; right; left; auto).
      unfold I in Hy. apply in_app_or in Hy as [Hy|Hy].
      * destruct (negative q); cbn in Hy; [destruct Hy as [<-|[]]; discriminate|destruct Hy].
      * apply digit_not. auto.
    + split; [left; auto|]. intros c [].
  - exists ("."%char :: u ++ [x]), k. split.
    + rewrite Hp. replace (I ++ "."%char :: u ++ [x]) with ((I ++ "."%char :: u) ++ [x]) by (rewrite <- app_assoc; auto).
      rewrite strip_snoc_ne; auto. apply digit_not. auto.
    + split; [right; eauto|]. intros c [<-|Hc]; auto. left. apply HF. rewrite S1. apply in_or_app. auto.
Qed.

Lemma round_half_even_spec : forall q, (2 * Z.abs (Qnum q - Zpos (Qden q) * round_half_even q) <= Zpos (Qden q))%Z.
Proof.
  intros q. unfold round_half_even. set (n := Qnum q). set (d := Zpos (Qden q)).
  assert (Hd : (0 < d)%Z) by (unfold d; lia).
  pose proof (Z.div_mod n d ltac:(lia)) as H. pose proof (Z.mod_pos_bound n d Hd) as Hb.
  destruct (Z.ltb_spec (2 * (n mod d)) d); [nia|]. destruct (Z.ltb_spec d (2 * (n mod d))); [nia|].
  destruct (Z.even _); nia.
Qed.
Lemma micro_nonneg : forall q, (0 <= micro q)%Z.
Proof.
  intros q. unfold micro. set (a := Qmult _ _).
  assert (Ha : (0 <= Qnum a)%Z).
  { unfold a, negative, millionths. destruct q as [n d]. cbn [Qnum]. destruct (Z.ltb_spec n 0); cbn; lia. }
  pose proof (round_half_even_spec a) as H. set (d := Zpos (Qden a)) in *.
  assert (0 < d)%Z by (unfold d; lia). nia.
Qed.

Lemma percent_str_inj : forall p q, percent_str p = percent_str q -> negative p = negative q /\ micro p = micro q.
Proof.
  intros p q H. apply (f_equal la) in H.
  destruct (percent_str_form p (micro_nonneg p)) as (X & k & P1 & P2 & _).
  destruct (percent_str_form q (micro_nonneg q)) as (Y & j & Q1 & Q2 & _).
  rewrite P1, Q1 in H.
  assert (Hnp : (0 <= micro p / millionths)%Z) by (apply Z.div_pos; [apply micro_nonneg|unfold millionths; lia]).
  assert (Hnq : (0 <= micro q / millionths)%Z) by (apply Z.div_pos; [apply micro_nonneg|unfold millionths; lia]).
  destruct (str_int_digits _ Hnp) as [D1 D2]. destruct (str_int_digits _ Hnq) as [D3 D4].
  assert (Hdot : forall b l, (forall c, In c l -> digit c = true) -> ~ In "."%char (sign_chars b ++ l)).
  { intros b l Hl Hc. apply in_app_or in Hc as [Hc|Hc].
    - destruct b; cbn in Hc; [destruct Hc as [Hc|[]]; discriminate|destruct Hc].
    - apply Hl in Hc. discriminate. }
  apply split_sep with (c := "."%char) in H as [H1 H2]; auto.
  2: { destruct P2 as [[-> _]|(F & -> & _)]; eauto. }
  2: { destruct Q2 as [[-> _]|(F & -> & _)]; eauto. }
  assert (Hs : negative p = negative q /\ la (str_int (micro p / millionths)) = la (str_int (micro q / millionths))).
  { destruct (negative p), (negative q); cbn in H1; auto.
    - injection H1 as H1; auto.
    - exfalso. destruct (la (str_int (micro q / millionths))) as [|c t]; [congruence|]. injection H1 as <- _.
      specialize (D3 _ (or_introl eq_refl)). discriminate.
    - exfalso. destruct (la (str_int (micro p / millionths))) as [|c t]; [congruence|]. injection H1 as -> _.
      specialize (D1 _ (or_introl eq_refl)). discriminate. }
  destruct Hs as [Hs1 Hs2]. split; auto. apply la_inj, str_int_inj in Hs2.
  assert (HF : pad_digits 6 (micro p mod millionths) = pad_digits 6 (micro q mod millionths)).
  { apply la_inj. pose proof (pad_length 6 (micro p mod millionths)) as L1. pose proof (pad_length 6 (micro q mod millionths)) as L2.
    destruct P2 as [[-> E1]|(F & -> & E1)]; destruct Q2 as [[-> E2]|(G & -> & E2)]; try discriminate; rewrite E1 in L1; rewrite E2 in L2.
    - rewrite E1, E2. rewrite repeat_length in L1, L2. congruence.
    - injection H2 as <-. rewrite E1, E2. rewrite app_length, repeat_length in L1, L2. replace j with k by lia. auto. }
  apply pad_inj in HF. change (10 ^ Z.of_nat 6)%Z with millionths in HF.
  rewrite !Z.mod_mod in HF by (unfold millionths; lia).
  rewrite (Z.div_mod (micro p) millionths), (Z.div_mod (micro q) millionths) by (unfold millionths; lia).
  congruence.
Qed.
Lemma percent_str_chars : forall q c, In c (la (percent_str q)) -> c <> "\"%char.
Proof.
  intros q c H. destruct (percent_str_form q (micro_nonneg q)) as (X & k & P1 & _ & P3). rewrite P1 in H.
  apply in_app_or in H as [H|H].
  - apply in_app_or in H as [H|H].
    + destruct (negative q); cbn in H; [destruct H as [<-|[]]; discriminate|destruct H].
    + apply str_int_chars in H as [H| ->]; [apply digit_not; auto|discriminate].
  - apply P3 in H as [H| ->]; [apply digit_not; auto|discriminate].
Qed.
