(** C51: what the latex names say: the number of the parameter counted from
    one, and the percentage. *)
From Coq Require Import List String Ascii Bool ZArith QArith Qabs Lia Lqa Decimal DecimalString DecimalZ DecimalPos DecimalFacts.
From Verif Require Import Base ModelNames ProofNames PropNames.
Import ListNotations.
Local Open Scope Q_scope.
Local Open Scope string_scope.

(** ** Reading decimal numbers *)
Definition is_digit (c : ascii) : Prop := In c (list_ascii_of_string "0123456789").
Definition digit_value (c : ascii) : Z := (Z.of_nat (nat_of_ascii c) - 48)%Z.
Definition read (l : list ascii) : Z := fold_left (fun a c => (10 * a + digit_value c)%Z) l 0%Z.
(** A number of digits: at least one, and not beginning with 0 except for 0. *)
Definition written (s : string) (n : Z) : Prop :=
  (forall c, In c (list_ascii_of_string s) -> is_digit c) /\ s <> "" /\ (forall t, s = "0" ++ t -> t = "") /\ read (list_ascii_of_string s) = n.
(** A number with a sign, an integer part and digits after a point which do not
    end with 0; there is no point if there are none. *)
Definition written_decimal (s : string) (q : Q) : Prop :=
  exists (neg : bool) (i : string) (f : string) n m,
    s = (if neg then "-" else "") ++ i ++ (if f =? "" then "" else "." ++ f) /\
    written i n /\
    (forall c, In c (list_ascii_of_string f) -> is_digit c) /\ read (list_ascii_of_string f) = m /\
    (forall g, f <> g ++ "0") /\
    q == (if neg then -1 # 1 else 1) * (inject_Z n + inject_Z m / inject_Z (10 ^ Z.of_nat (String.length f))).

Lemma digit_is : forall c, digit c = true -> is_digit c.
Proof.
  intros c H. unfold digit in H. apply existsb_exists in H as (x & H1 & H2). apply Ascii.eqb_eq in H2 as ->. auto.
Qed.
Definition step (a : Z) (c : ascii) : Z := (10 * a + digit_value c)%Z.
Lemma read_acc : forall d p, fold_left step (la (NilEmpty.string_of_uint d)) (Zpos p) = Zpos (Pos.of_uint_acc d p).
Proof.
  induction d; intros p; cbn [NilEmpty.string_of_uint list_ascii_of_string fold_left Pos.of_uint_acc]; auto;
    rewrite <- IHd; f_equal; unfold step; match goal with |- context [digit_value ?c] => let v := eval vm_compute in (digit_value c) in change (digit_value c) with v end; lia.
Qed.
Lemma read_empty_uint : forall d, fold_left step (la (NilEmpty.string_of_uint d)) 0%Z = Z.of_N (Pos.of_uint d).
Proof.
  induction d; cbn [NilEmpty.string_of_uint list_ascii_of_string fold_left Pos.of_uint]; auto;
    match goal with |- context [step 0 ?c] => let v := eval vm_compute in (step 0 c) in change (step 0 c) with v end; auto;
    rewrite read_acc; reflexivity.
Qed.
Lemma read_str_int : forall z, (0 <= z)%Z -> read (la (str_int z)) = z.
Proof.
  intros z Hz. unfold str_int, read. fold step. rewrite <- (DecimalZ.of_to z) at 2.
  destruct z as [|p|p]; [reflexivity| |lia]. cbn [Z.to_int NilZero.string_of_int Z.of_int Z.of_uint].
  assert (H : forall d, NilZero.string_of_uint d = NilEmpty.string_of_uint d \/ d = Nil) by (intros []; auto).
  destruct (H (Pos.to_uint p)) as [->|E]; [apply read_empty_uint|].
  exfalso. apply (Unsigned.to_uint_nonnil p). auto.
Qed.
Lemma no_leading_zero : forall z t, (0 <= z)%Z -> str_int z = "0" ++ t -> t = "".
Proof.
  intros z t Hz H. pose proof (DecimalZ.to_of (Z.to_int z)) as N. rewrite DecimalZ.of_to in N.
  unfold str_int in H. destruct z as [|p|p]; [injection H as <-; auto| |lia].
  cbn [Z.to_int] in *. unfold norm in N. assert (Hd : Pos.to_uint p = unorm (Pos.to_uint p)) by congruence.
  cbn [NilZero.string_of_int] in H. destruct (Pos.to_uint p) as [|d|d|d|d|d|d|d|d|d|d]; try discriminate H.
  - injection H as <-. auto.
  - unfold unorm in Hd. cbn [nzhead] in Hd. destruct (nzhead d) eqn:E; try discriminate.
    + injection Hd as ->. injection H as <-. auto.
    + exfalso. apply (DecimalFacts.nzhead_nonzero d u). auto.
Qed.
Lemma written_str_int : forall z, (0 <= z)%Z -> written (str_int z) z.
Proof.
  intros z Hz. destruct (str_int_digits z Hz) as [H1 H2]. split; [|split].
  - intros c Hc. apply digit_is. auto.
  - intros E. rewrite E in H2. apply H2. reflexivity.
  - split; [intros t; apply no_leading_zero; auto|]. apply read_str_int; auto.
Qed.
Lemma read_app : forall a b, read (a ++ b) = (read a * 10 ^ Z.of_nat (List.length b) + read b)%Z.
Proof.
  intros a b. unfold read. rewrite fold_left_app. generalize (fold_left (fun x c => (10 * x + digit_value c)%Z) a 0%Z). intros x.
  change (fun (a : Z) (c : ascii) => (10 * a + digit_value c)%Z) with step.
  revert x. induction b as [|c b IH] using rev_ind; intros x; [cbn; lia|].
  rewrite !fold_left_app, app_length. cbn [fold_left List.length]. rewrite IH. unfold step.
  replace (Z.of_nat (List.length b + 1)) with (Z.of_nat (List.length b) + 1)%Z by lia.
  rewrite Z.pow_add_r by lia. lia.
Qed.
Lemma read_zeros : forall k, read (repeat "0"%char k) = 0%Z.
Proof. induction k as [|k IH]; auto. Qed.
Lemma read_pad : forall n z, read (la (pad_digits n z)) = (z mod 10 ^ Z.of_nat n)%Z.
Proof.
  induction n as [|n IH]; intros z; [cbn; rewrite Z.mod_1_r; auto|].
  cbn [pad_digits]. rewrite la_app, read_app, IH.
  pose proof (Z.mod_pos_bound z 10 ltac:(lia)) as Hb. rewrite read_str_int by lia.
  destruct (one_digit (z mod 10)) as (c & E & _); auto. rewrite E. cbn [List.length].
  replace (Z.of_nat (S n)) with (1 + Z.of_nat n)%Z by lia. rewrite Z.pow_add_r by lia.
  change (10 ^ 1)%Z with 10%Z. change (10 ^ Z.of_nat 1)%Z with 10%Z.
  assert (0 < 10 ^ Z.of_nat n)%Z by (apply Z.pow_pos_nonneg; lia).
  rewrite Z.rem_mul_r by lia. lia.
Qed.

Lemma percent_form : forall q, exists F k,
    (F = [] \/ exists u x, F = (u ++ [x])%list /\ x <> "0"%char) /\
    la (pad_digits 6 (micro q mod millionths)) = (F ++ repeat "0"%char k)%list /\
    la (percent_str q) = ((sign_chars (negative q) ++ la (str_int (micro q / millionths))) ++
       match F with [] => [] | _ => "."%char :: F end)%list.
Proof.
  intros q. pose proof (micro_nonneg q) as Hq.
  set (I := (sign_chars (negative q) ++ la (str_int (micro q / millionths)))%list).
  set (F := la (pad_digits 6 (micro q mod millionths))).
  assert (Hn : (0 <= micro q / millionths)%Z) by (apply Z.div_pos; unfold millionths; lia).
  destruct (str_int_digits _ Hn) as [D1 D2].
  assert (Hf : la (percent_f q) = (I ++ "."%char :: F)%list).
  { unfold percent_f, I, F. rewrite !la_app. rewrite <- app_assoc. f_equal.
    destruct (negative q); auto. }
  assert (HF : forall c, In c F -> digit c = true) by (intros c; apply pad_chars).
  destruct (strip_digits I F) as (F' & k & S1 & S2 & S3).
  assert (Hp : la (percent_str q) = strip "." (I ++ "."%char :: F')%list).
  { unfold percent_str. rewrite !rstrip_la, Hf, S2. auto. }
  exists F', k. split; [destruct S3 as [->|(u & x & -> & _ & Hx)]; eauto|]. split; [auto|].
  destruct S3 as [->|(u & x & -> & Hx & _)].
  - rewrite Hp. rewrite strip_snoc_eq, app_nil_r.
    assert (HI : I <> []) by (unfold I; destruct (la (str_int _)); [congruence|destruct (sign_chars _); discriminate]).
    destruct (exists_last HI) as (v & y & Hv). rewrite Hv. apply strip_snoc_ne.
    assert (Hy : In y I) by (rewrite Hv; apply in_or_app; right; left; auto).
    unfold I in Hy. apply in_app_or in Hy as [Hy|Hy].
    + destruct (negative q); cbn in Hy; [destruct Hy as [<-|[]]; discriminate|destruct Hy].
    + apply digit_not. auto.
  - rewrite Hp. replace (match (u ++ [x])%list with [] => [] | _ => "."%char :: u ++ [x] end)%list with ("."%char :: u ++ [x])%list by (destruct u; auto).
    replace (I ++ "."%char :: u ++ [x])%list with ((I ++ "."%char :: u) ++ [x])%list by (rewrite <- app_assoc; auto).
    rewrite strip_snoc_ne; auto. apply digit_not. apply HF. rewrite S1. apply in_or_app. left. apply in_or_app. right. left. auto.
Qed.

Lemma micro_near : forall p, Qabs ((if negative p then - p else p) * inject_Z millionths - inject_Z (micro p)) <= 1 # 2.
Proof.
  intros p. unfold micro. set (a := Qmult _ _). pose proof (round_half_even_spec a) as H.
  destruct a as [n d]. cbn [Qnum Qden] in H. set (r := round_half_even (n # d)) in *.
  unfold Qabs, Qminus, Qplus, Qopp, inject_Z, Qle. cbn [Qnum Qden]. nia.
Qed.

Lemma length_la : forall s, List.length (la s) = String.length s.
Proof. induction s as [|c s IH]; auto. cbn. rewrite IH. auto. Qed.
Lemma percent_value : forall q, exists v, written_decimal (percent_str q) v /\ Qabs (v - q) <= 1 # 2000000.
Proof.
  intros q. destruct (percent_form q) as (F & k & HF & Hpad & Hs).
  pose proof (micro_nonneg q) as Hq. pose proof (micro_near q) as Hm.
  set (n := (micro q / millionths)%Z) in *. set (r := (micro q mod millionths)%Z) in *.
  assert (Hn : (0 <= n)%Z) by (apply Z.div_pos; unfold millionths; lia).
  assert (Hr : (0 <= r < millionths)%Z) by (apply Z.mod_pos_bound; unfold millionths; lia).
  assert (Hmn : micro q = (millionths * n + r)%Z) by (apply Z.div_mod; unfold millionths; lia).
  set (f := string_of_list_ascii F).
  assert (Hlf : la f = F) by apply list_ascii_of_string_of_list_ascii.
  assert (Hlen : (List.length F + k = 6)%nat).
  { pose proof (pad_length 6 r) as H. rewrite Hpad, app_length, repeat_length in H. auto. }
  assert (Hread : (read F * 10 ^ Z.of_nat k = r)%Z).
  { pose proof (read_pad 6 r) as H. rewrite Hpad, read_app, read_zeros, repeat_length in H.
    change (10 ^ Z.of_nat 6)%Z with millionths in H. rewrite Z.mod_small in H by auto. lia. }
  set (P := (10 ^ Z.of_nat (List.length F))%Z).
  assert (HP : (P * 10 ^ Z.of_nat k = millionths)%Z).
  { unfold P. rewrite <- Z.pow_add_r by lia. replace (Z.of_nat (List.length F) + Z.of_nat k)%Z with 6%Z by lia. reflexivity. }
  assert (HPpos : (0 < P)%Z) by (apply Z.pow_pos_nonneg; lia).
  assert (Hfrac : inject_Z (read F) / inject_Z P == inject_Z r / inject_Z millionths).
  { rewrite <- Hread, <- HP, !inject_Z_mult.
    assert (Hk : ~ inject_Z (10 ^ Z.of_nat k) == 0).
    { intros E. change 0 with (inject_Z 0) in E. apply (proj1 (inject_Z_injective _ _)) in E.
      apply (Z.lt_irrefl 0). rewrite <- E at 2. apply Z.pow_pos_nonneg; lia. }
    assert (Hp : ~ inject_Z P == 0).
    { intros E. change 0 with (inject_Z 0) in E. apply (proj1 (inject_Z_injective _ _)) in E. rewrite E in HPpos. apply (Z.lt_irrefl 0 HPpos). }
    field. auto. }
  exists ((if negative q then -1 # 1 else 1) * (inject_Z n + inject_Z (read F) / inject_Z P)). split.
  - exists (negative q), (str_int n), f, n, (read F). split; [|split; [|split; [|split; [|split]]]].
    + apply la_inj. rewrite Hs, !la_app, <- app_assoc. unfold f. f_equal; [destruct (negative q); auto|]. f_equal.
      destruct F as [|x F0]; auto. cbn. rewrite list_ascii_of_string_of_list_ascii. auto.
    + apply written_str_int; auto.
    + rewrite Hlf. intros c Hc. apply digit_is, (pad_chars 6 r). rewrite Hpad. apply in_or_app. auto.
    + rewrite Hlf. auto.
    + intros g E. apply (f_equal la) in E. rewrite Hlf, la_app in E.
      destruct HF as [->|(u & x & -> & Hx)].
      * destruct (la g); discriminate.
      * change (la "0") with ["0"%char] in E. apply app_inj_tail in E as [_ E]. auto.
    + rewrite <- (length_la f), Hlf. reflexivity.
  - rewrite Hfrac. rewrite Hmn in Hm. rewrite inject_Z_plus, inject_Z_mult in Hm.
    change (inject_Z millionths) with (1000000 # 1) in *.
    apply Qabs_Qle_condition in Hm. apply Qabs_Qle_condition.
    assert (Hd : inject_Z r / (1000000 # 1) == (1 # 1000000) * inject_Z r) by (field). rewrite Hd.
    destruct (negative q); split; lra.
Qed.

(** The parameter with index [i] is shown as i + 1, and the probability as a
    percentage correct to half of a millionth, without zeros at the end of its
    decimals; only the probability 1/2 is shown as the median. *)
Theorem C51_text : forall n kw s, get_latex_name (Plain n) kw = Ok s ->
    (In n with_param -> (-1 <= param_of kw)%Z ->
       exists pre d post, s = pre ++ "\hat{" ++ d ++ "}" ++ post /\ written d (param_of kw + 1)) /\
    (In n with_prob -> prob_of kw == 1 # 2 -> exists post, s = "$\mathrm{median}(" ++ post) /\
    (In n with_prob -> ~ prob_of kw == 1 # 2 ->
       exists t v post, s = "$\mathrm{C.I.}_{" ++ t ++ "\%}(" ++ post /\
         written_decimal t v /\ Qabs (v - (100 # 1) * prob_of kw) <= 1 # 2000000).
Proof.
  intros n kw s H. apply plain_Ok in H as [_ H]. apply lookup_known in H.
  set (i := param_of kw) in *. set (p := prob_of kw) in *.
  assert (Hind : (-1 <= i)%Z -> forall pre post, exists pre' d post',
     pre ++ ind_str i ++ post = pre' ++ "\hat{" ++ d ++ "}" ++ post' /\ written d (i + 1)).
  { intros Hi pre post. exists (pre ++ "{"), (str_int (i + 1)), ("}" ++ post). split; [|apply written_str_int; lia].
    unfold ind_str. apply la_inj. rewrite !la_app, <- !app_assoc. reflexivity. }
  assert (Hmed : forall t, p == 1 # 2 -> exists post, cred_str p ++ t = "$\mathrm{median}(" ++ post).
  { intros t E. unfold cred_str. apply Qeq_bool_iff in E. rewrite E. eauto. }
  assert (Hperc : forall t, ~ p == 1 # 2 -> exists u v post, cred_str p ++ t = "$\mathrm{C.I.}_{" ++ u ++ "\%}(" ++ post /\
     written_decimal u v /\ Qabs (v - (100 # 1) * p) <= 1 # 2000000).
  { intros t E. unfold cred_str. destruct (Qeq_bool p (1 # 2)) eqn:Ep; [apply Qeq_bool_iff in Ep; tauto|].
    destruct (percent_value (p * (100 # 1))) as (v & Hv & Hc). exists (percent_str (p * (100 # 1))), v, t.
    split; [|split; auto].
    - unfold percent_str. apply la_inj. rewrite !la_app, <- !app_assoc. reflexivity.
    - rewrite (Qmult_comm (100 # 1)). auto. }
  destruct H as [[-> ->]|[[-> ->]|[[-> ->]|[[-> ->]|[[-> ->]|[[-> ->]|[[-> ->]|[-> ->]]]]]]]];
    (split; [intros Hin; try (exfalso; cbn in Hin; intuition discriminate); auto|
             split; intros Hin; try (exfalso; cbn in Hin; intuition discriminate); auto]).
  intros Hi. destruct (Hind Hi (cred_str p ++ "\theta_") ")$") as (a & d & b & E & W).
  exists a, d, b. split; auto. rewrite <- E. rewrite str_assoc. auto.
Qed.
Print Assumptions C51_text.

(** The other names, and what is around the numbers. *)
Theorem C51_symbols : forall n kw s, get_latex_name (Plain n) kw = Ok s ->
    (n = "count_samples" -> s = "samples") /\
    (n = "logz" -> s = "$\mathrm{log} \mathcal{Z}$") /\
    (n = "evidence" -> s = "$\mathcal{Z}$") /\
    (n = "r_mean" -> s = "$\overline{|\theta|}$") /\
    (n = "param_mean" -> exists d, s = "$\overline{\theta_{\hat{" ++ d ++ "}}}$") /\
    (n = "param_squared_mean" -> exists d, s = "$\overline{\theta^2_{\hat{" ++ d ++ "}}}$") /\
    (n = "param_cred" -> exists a d, s = a ++ "(\theta_{\hat{" ++ d ++ "}})$") /\
    (n = "r_cred" -> exists a, s = a ++ "(|\theta|)$").
Proof.
  intros n kw s H. apply plain_Ok in H as [_ H]. apply lookup_known in H.
  assert (Hc : forall p, exists a, cred_str p = a ++ "(").
  { intros p. unfold cred_str. destruct (Qeq_bool p (1 # 2)); [exists "$\mathrm{median}"; auto|].
    exists ("$\mathrm{C.I.}_{" ++ percent_str (p * (100 # 1)) ++ "\%}"). apply la_inj. rewrite !la_app, <- !app_assoc. reflexivity. }
  destruct H as [[-> ->]|[[-> ->]|[[-> ->]|[[-> ->]|[[-> ->]|[[-> ->]|[[-> ->]|[-> ->]]]]]]]];
    (repeat apply conj); intros E; try discriminate E; auto.
  - exists (str_int (param_of kw + 1)). unfold ind_str. apply la_inj. rewrite !la_app, <- !app_assoc. reflexivity.
  - exists (str_int (param_of kw + 1)). unfold ind_str. apply la_inj. rewrite !la_app, <- !app_assoc. reflexivity.
  - destruct (Hc (prob_of kw)) as (a & ->). exists a, (str_int (param_of kw + 1)). unfold ind_str. apply la_inj.
    rewrite !la_app, <- !app_assoc. reflexivity.
  - destruct (Hc (prob_of kw)) as (a & ->). exists a. apply la_inj. rewrite !la_app, <- !app_assoc. reflexivity.
Qed.
Print Assumptions C51_symbols.

(** The third of the numbers 0, 1, 2, ... is shown as 3 and 0.1255 as 12.55%. *)
Example C51_text_example :
    get_latex_name (Plain "param_cred") (kw_of 2 (1255 # 10000)) = Ok "$\mathrm{C.I.}_{12.55\%}(\theta_{\hat{3}})$" /\
    written "3" 3 /\ written_decimal "12.55" (1255 # 100) /\ ~ written_decimal "12.50" (125 # 10).
Proof.
  split; [vm_compute; reflexivity|]. split; [|split].
  - repeat split; [|discriminate..]. intros c Hc. cbn in Hc. unfold is_digit. cbn. tauto.
  - exists false, "12", "55", 12%Z, 55%Z. split; [reflexivity|].
    assert (forall c, In c (list_ascii_of_string "12") -> is_digit c) by (intros c Hc; cbn in Hc; unfold is_digit; cbn; tauto).
    assert (forall c, In c (list_ascii_of_string "55") -> is_digit c) by (intros c Hc; cbn in Hc; unfold is_digit; cbn; tauto).
    repeat split; auto; [discriminate..|]. intros g E. apply (f_equal la) in E. rewrite la_app in E.
    change (la "55") with (["5"] ++ ["5"])%list%char in E. change (la "0") with ["0"%char] in E. apply app_inj_tail in E as [_ E]. discriminate.
  - intros (neg & i & f & n & m & E & W & D & _ & Z0 & _).
    assert (Hi : ~ In "."%char (la i)).
    { intros Hc. destruct W as (W & _). apply W in Hc. cbn in Hc. intuition discriminate. }
    assert (Hf : f = "50").
    { destruct neg.
      - destruct i; discriminate E.
      - destruct (String.eqb_spec f "") as [->|Hf].
        + exfalso. apply Hi. apply (f_equal la) in E. cbn [append] in E. rewrite la_app in E. cbn [la] in E. rewrite app_nil_r in E. rewrite <- E. cbn. tauto.
        + apply (f_equal la) in E. cbn [append] in E. rewrite la_app in E.
          change (la "12.50") with (la "12" ++ "."%char :: la "50")%list in E.
          apply split_sep with (c := "."%char) in E as [_ E].
          * cbn in E. injection E as E. apply la_inj. auto.
          * cbn. intuition discriminate.
          * auto.
          * right. eauto.
          * right. eexists. reflexivity. }
    subst f. apply (Z0 "5"). reflexivity.
Qed.
