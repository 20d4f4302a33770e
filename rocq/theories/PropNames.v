(** C51: latex names. *)
From Coq Require Import List String Ascii Bool ZArith QArith Qabs Lia Lqa.
From Verif Require Import Base ModelNames ProofNames.
Import ListNotations.
Local Open Scope Q_scope.
Local Open Scope string_scope.

Definition estimators : list string :=
  ["count_samples"; "logz"; "evidence"; "r_mean"; "param_mean"; "param_squared_mean"; "param_cred"; "r_cred"].
Definition with_param : list string := ["param_mean"; "param_squared_mean"; "param_cred"].
Definition with_prob : list string := ["param_cred"; "r_cred"].
(** The values used: the defaults are 0 and 0.5. *)
Definition param_of (kw : kwargs) : Z := match k_param kw with Some i => i | None => 0%Z end.
Definition prob_of (kw : kwargs) : Q := match k_prob kw with Some p => p | None => 1 # 2 end.

Lemma lookup_known : forall n i p s, lookup n i p = Some s ->
    (n = "count_samples" /\ s = "samples") \/ (n = "logz" /\ s = "$\mathrm{log} \mathcal{Z}$") \/
    (n = "evidence" /\ s = "$\mathcal{Z}$") \/ (n = "r_mean" /\ s = "$\overline{|\theta|}$") \/
    (n = "param_mean" /\ s = "$\overline{\theta_" ++ ind_str i ++ "}$") \/
    (n = "param_squared_mean" /\ s = "$\overline{\theta^2_" ++ ind_str i ++ "}$") \/
    (n = "param_cred" /\ s = cred_str p ++ "\theta_" ++ ind_str i ++ ")$") \/
    (n = "r_cred" /\ s = cred_str p ++ "|\theta|)$").
Proof.
  intros n i p s H. unfold lookup in H.
  repeat match type of H with
  | context [if ?x =? ?y then _ else _] => destruct (String.eqb_spec x y) as [->|]; [injection H as <-; tauto|]
  end. discriminate.
Qed.
Lemma plain_Ok : forall n kw s, get_latex_name (Plain n) kw = Ok s ->
    k_other kw = [] /\ lookup n (param_of kw) (prob_of kw) = Some s.
Proof.
  intros n kw s H. unfold get_latex_name, rbind in H. fold (param_of kw) (prob_of kw) in H.
  destruct (k_other kw); [|discriminate]. split; auto.
  destruct (lookup n (param_of kw) (prob_of kw)); [injection H as ->; auto|discriminate].
Qed.

(** Where a name is given and which error there is otherwise. *)
Theorem C51_domain : forall n kw,
    (k_other kw <> [] -> get_latex_name (Plain n) kw = Raise TypeError) /\
    (k_other kw = [] -> ~ In n estimators -> get_latex_name (Plain n) kw = Raise KeyError) /\
    (k_other kw = [] -> In n estimators -> exists s, get_latex_name (Plain n) kw = Ok s).
Proof.
  intros n kw. unfold get_latex_name, rbind. fold (param_of kw) (prob_of kw).
  split; [|split].
  - destruct (k_other kw); [congruence|auto].
  - intros -> Hn. destruct (lookup n (param_of kw) (prob_of kw)) as [s|] eqn:E; auto. exfalso. apply Hn.
    destruct (lookup_known _ _ _ _ E) as [H|[H|[H|[H|[H|[H|[H|H]]]]]]]; destruct H as [-> _]; cbn; tauto.
  - intros -> Hn. cbn in Hn.
    destruct Hn as [<-|[<-|[<-|[<-|[<-|[<-|[<-|[<-|[]]]]]]]]]; cbn [lookup String.eqb Ascii.eqb Bool.eqb]; eauto.
Qed.
Print Assumptions C51_domain.

Lemma str_app_head : forall a b c, (a ++ b = a ++ c -> b = c).
Proof. induction a as [|x a IH]; intros b c H; auto. cbn in H. injection H as H. auto. Qed.
Lemma str_app_tail : forall a b c, (b ++ a = c ++ a -> b = c).
Proof. intros a b c H. apply (f_equal la) in H. rewrite !la_app in H. apply app_inv_tail in H. apply la_inj; auto. Qed.
Lemma str_assoc : forall a b c, (a ++ b) ++ c = a ++ (b ++ c).
Proof. induction a as [|x a IH]; intros; cbn; [auto|]. rewrite IH. auto. Qed.

Lemma ind_str_inj : forall i j t, ind_str i ++ t = ind_str j ++ t -> i = j.
Proof.
  intros i j t H. unfold ind_str in H. apply str_app_tail, str_app_head, str_app_tail, str_int_inj in H. lia.
Qed.
Lemma cred_str_inj : forall p q t u, cred_str p ++ t = cred_str q ++ u ->
    (p == 1 # 2 <-> q == 1 # 2) /\ t = u /\
    (p == 1 # 2 \/ negative (p * (100 # 1)) = negative (q * (100 # 1)) /\ micro (p * (100 # 1)) = micro (q * (100 # 1))).
Proof.
  intros p q t u H. unfold cred_str in H.
  destruct (Qeq_bool p (1 # 2)) eqn:Hp, (Qeq_bool q (1 # 2)) eqn:Hq.
  - apply Qeq_bool_iff in Hp, Hq. split; [tauto|]. split; [|auto]. apply str_app_head in H. auto.
  - discriminate H.
  - discriminate H.
  - assert (Hp' : ~ p == 1 # 2) by (intros E; apply Qeq_bool_iff in E; congruence).
    assert (Hq' : ~ q == 1 # 2) by (intros E; apply Qeq_bool_iff in E; congruence).
    fold (percent_str (p * (100 # 1))) (percent_str (q * (100 # 1))) in H.
    rewrite !str_assoc in H. apply str_app_head in H.
    apply (f_equal la) in H. rewrite !la_app in H.
    apply split_sep with (c := "\"%char) in H as [H1 H2].
    + split; [tauto|]. apply app_inv_head in H2. split; [apply la_inj; auto|]. right.
      apply percent_str_inj. apply la_inj; auto.
    + intros Hc. apply (percent_str_chars _ _ Hc). auto.
    + intros Hc. apply (percent_str_chars _ _ Hc). auto.
    + right. eexists. reflexivity.
    + right. eexists. reflexivity.
Qed.

Lemma micro_close : forall p q, negative p = negative q -> micro p = micro q -> Qabs (p - q) <= 1 # 1000000.
Proof.
  assert (Hm : forall p, Qabs ((if negative p then - p else p) * inject_Z millionths - inject_Z (micro p)) <= 1 # 2).
  { intros p. unfold micro. set (a := Qmult _ _). pose proof (round_half_even_spec a) as H.
    destruct a as [n d]. cbn [Qnum Qden] in H. set (r := round_half_even (n # d)) in *.
    unfold Qabs, Qminus, Qplus, Qopp, inject_Z, Qle. cbn [Qnum Qden]. nia. }
  intros p q Hs He. pose proof (Hm p) as H1. pose proof (Hm q) as H2. rewrite <- He in H2. rewrite <- Hs in H2.
  set (m := inject_Z (micro p)) in *. change (inject_Z millionths) with (1000000 # 1) in *.
  apply Qabs_Qle_condition in H1, H2. apply Qabs_Qle_condition.
  destruct (negative p); split; lra.
Qed.

(** Different estimators have different names.  Names of the same estimator
    are different for different parameters where these are used, and for
    probabilities which differ by more than 1e-8 or of which one is 0.5. *)
Theorem C51_names : forall n m kn km s,
    get_latex_name (Plain n) kn = Ok s -> get_latex_name (Plain m) km = Ok s ->
    n = m /\ (In n with_param -> param_of kn = param_of km) /\
    (In n with_prob -> (prob_of kn == 1 # 2 <-> prob_of km == 1 # 2) /\
                       Qabs (prob_of kn - prob_of km) <= 1 # 100000000).
Proof.
  intros n m kn km s Hn Hm.
  apply plain_Ok in Hn as [_ Hn]. apply plain_Ok in Hm as [_ Hm].
  generalize dependent (param_of kn). generalize dependent (param_of km).
  generalize dependent (prob_of kn). generalize dependent (prob_of km).
  intros q p j Hm i Hn.
  assert (Hclose : forall t u, cred_str p ++ t = cred_str q ++ u ->
     (p == 1 # 2 <-> q == 1 # 2) /\ Qabs (p - q) <= 1 # 100000000).
  { intros t u H. apply cred_str_inj in H as (H1 & _ & H2). split; auto.
    destruct H2 as [H2|[H2 H3]].
    - assert (H3 : q == 1 # 2) by tauto. rewrite H2, H3. unfold Qle. cbn. lia.
    - pose proof (micro_close _ _ H2 H3) as H4. apply Qabs_Qle_condition in H4. apply Qabs_Qle_condition. split; lra. }
  assert (Hhead : forall p, exists c t, cred_str p = String "$" (String "\" (String "m" (String "a" (String "t" (String "h"
       (String "r" (String "m" (String "{" (String c t))))))))) /\ c <> "l"%char).
  { intros p0. unfold cred_str. destruct (Qeq_bool p0 (1 # 2)); eexists; eexists; (split; [reflexivity|discriminate]). }
  destruct (Hhead p) as (cp & tp & Ep & Np). destruct (Hhead q) as (cq & tq & Eq & Nq).
  apply lookup_known in Hn. apply lookup_known in Hm.
  destruct Hn as [[-> ->]|[[-> ->]|[[-> ->]|[[-> ->]|[[-> ->]|[[-> ->]|[[-> ->]|[-> ->]]]]]]]];
  destruct Hm as [[-> Hs]|[[-> Hs]|[[-> Hs]|[[-> Hs]|[[-> Hs]|[[-> Hs]|[[-> Hs]|[-> Hs]]]]]]]];
  try discriminate Hs;
  try (rewrite Ep in Hs; cbn in Hs; injection Hs as Hs1 Hs; congruence);
  try (rewrite Eq in Hs; cbn in Hs; injection Hs as Hs1 Hs; congruence);
  try (split; [reflexivity|]; split; [intros Hin; cbn in Hin|intros Hin; cbn in Hin]; exfalso; intuition discriminate).
  - split; [auto|]. split; [|intros Hin; cbn in Hin; exfalso; intuition discriminate].
    intros _. apply str_app_head, ind_str_inj in Hs. auto.
  - split; [auto|]. split; [|intros Hin; cbn in Hin; exfalso; intuition discriminate].
    intros _. apply str_app_head, ind_str_inj in Hs. auto.
  - split; [auto|]. split; [|intros _; eapply Hclose; eauto].
    intros _. apply cred_str_inj in Hs as (_ & Hs & _). apply str_app_head, ind_str_inj in Hs. auto.
  - exfalso. apply cred_str_inj in Hs as (_ & Hs & _). discriminate.
  - exfalso. apply cred_str_inj in Hs as (_ & Hs & _). discriminate.
  - split; [auto|]. split; [intros Hin; cbn in Hin; exfalso; intuition discriminate|].
    intros _. eapply Hclose; eauto.
Qed.
Print Assumptions C51_names.

Definition kw_of (i : Z) (p : Q) : kwargs := mkKw (Some i) (Some p) false [].
Example C51_example :
    get_latex_name (Plain "param_cred") (kw_of 1 (84 # 100)) = Ok "$\mathrm{C.I.}_{84\%}(\theta_{\hat{2}})$" /\
    get_latex_name (Plain "r_cred") (kw_of 1 (1255 # 10000)) = Ok "$\mathrm{C.I.}_{12.55\%}(|\theta|)$" /\
    get_latex_name (Plain "param_cred") no_kw = Ok "$\mathrm{median}(\theta_{\hat{1}})$" /\
    get_latex_name (Plain "param_squared_mean") (kw_of 11 (1 # 2)) = Ok "$\overline{\theta^2_{\hat{12}}}$" /\
    get_latex_name (Plain "mean") no_kw = Raise KeyError.
Proof. repeat split; vm_compute; reflexivity. Qed.

(** Different probabilities need not have different names, so the bound cannot
    be dropped. *)
Theorem C51_refuted :
    ~ (forall n kn km s, get_latex_name (Plain n) kn = Ok s -> get_latex_name (Plain n) km = Ok s ->
         In n with_prob -> prob_of kn == prob_of km).
Proof.
  intros H. specialize (H "r_cred" (kw_of 0 (1234567890 # 10000000000)) (kw_of 0 (1234567899 # 10000000000))
    "$\mathrm{C.I.}_{12.345679\%}(|\theta|)$" ltac:(vm_compute; reflexivity) ltac:(vm_compute; reflexivity)).
  specialize (H (or_intror (or_introl eq_refl))). discriminate H.
Qed.
Print Assumptions C51_refuted.

(** A functools.partial has the name of the function called with its keywords,
    whichever way they are divided; giving a keyword twice is refused. *)
Theorem C51_of_partial_function : forall n k kw,
    (k_param k <> None /\ k_param kw <> None \/ k_prob k <> None /\ k_prob kw <> None \/
     (exists x, In x (k_other k) /\ In x (k_other kw)) ->
     get_latex_name (Partial n k) kw = Raise AssertionError) /\
    (k_param k = None \/ k_param kw = None -> k_prob k = None \/ k_prob kw = None ->
     k_handle k = false \/ k_handle kw = false -> k_other k = [] -> k_other kw = [] ->
     get_latex_name (Partial n k) kw =
     get_latex_name (Plain n) (mkKw (match k_param k with Some i => Some i | None => k_param kw end)
                                    (match k_prob k with Some i => Some i | None => k_prob kw end) false [])).
Proof.
  intros n [i p h o] [i' p' h' o']. cbn [k_param k_prob k_handle k_other]. split.
  - intros H. unfold get_latex_name, repeated. cbn [k_param k_prob k_handle k_other].
    replace (_ || _ || _ || _) with true; auto. symmetry. rewrite !orb_true_iff.
    destruct H as [[H1 H2]|[[H1 H2]|[x [H1 H2]]]].
    + destruct i, i'; try congruence. cbn. auto.
    + destruct p, p'; try congruence. cbn. auto.
    + right. apply existsb_exists. exists x. split; auto. apply existsb_exists. exists x. split; auto. apply String.eqb_refl.
  - intros H1 H2 H3 -> ->. unfold get_latex_name, repeated, update. cbn [k_param k_prob k_handle k_other].
    replace (_ || _ || _ || _) with false.
    2: { symmetry. cbn [existsb]. destruct i, i', p, p', h, h'; cbn; intuition discriminate. }
    unfold rbind. cbn. destruct i, i', p, p'; try reflexivity; intuition discriminate.
Qed.
Print Assumptions C51_of_partial_function.
Example C51_of_partial_function_example :
    get_latex_name (Partial "param_mean" (kw_of 1 (1 # 2))) no_kw = Ok "$\overline{\theta_{\hat{2}}}$" /\
    get_latex_name (Partial "param_mean" (kw_of 1 (1 # 2))) (kw_of 2 (1 # 2)) = Raise AssertionError.
Proof. split; vm_compute; reflexivity. Qed.
