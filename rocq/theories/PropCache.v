(** C106: the names of cache files. *)
From Coq Require Import List String Ascii Bool ZArith Lia.
From Verif Require Import Base ProofNames ModelNames ModelCache.
Local Open Scope string_scope. Local Open Scope nat_scope.

(** What is plotted, without order: every run and quantity once. *)
Definition in_range (nruns nquant : nat) (p : plotted) : Prop :=
  match p with Weights r => r < nruns | Distribution r q => r < nruns /\ q < nquant end.
Definition is_distribution (p : plotted) : Prop := match p with Distribution _ _ => True | Weights _ => False end.

Lemma la_append : forall a b, la (a ++ b) = (la a ++ la b)%list.
Proof. induction a as [|c a IH]; intros b; cbn; auto. unfold la in *. cbn. rewrite IH. auto. Qed.
Lemma last_sep : forall (c : ascii) x y a b, ~ In c a -> ~ In c b -> (x ++ c :: a = y ++ c :: b)%list -> x = y /\ a = b.
Proof.
  intros c. induction x as [|u x IH]; intros [|v y] a b Ha Hb H; cbn in H.
  - injection H as ->. auto.
  - injection H as -> ->. exfalso. apply Ha, in_or_app. right. left. auto.
  - injection H as -> <-. exfalso. apply Hb, in_or_app. right. left. auto.
  - injection H as -> H. destruct (IH y a b) as [-> ->]; auto.
Qed.
Lemma no_underscore : forall n, ~ In "_"%char (la (str_int (Z.of_nat n))).
Proof. intros n H. apply str_int_digits in H; [discriminate|lia]. Qed.
Lemma str_nat_inj : forall a b, str_int (Z.of_nat a) = str_int (Z.of_nat b) -> a = b.
Proof. intros a b H. apply str_int_inj in H. lia. Qed.
(** A name ends after its last underscore. *)
Lemma name_inj : forall s t a b, ~ In "_"%char (la a) -> ~ In "_"%char (la b) -> s ++ "_" ++ a = t ++ "_" ++ b -> s = t /\ a = b.
Proof.
  intros s t a b Ha Hb H. apply (f_equal la) in H. rewrite !la_append in H. cbn [la] in H.
  change (la "_") with ["_"%char] in H. cbn [app] in H. apply last_sep in H as [H1 H2]; auto. split; apply la_inj; auto.
Qed.
Lemma str_app_assoc : forall a b c : string, (a ++ b) ++ c = a ++ b ++ c.
Proof. induction a as [|x a IH]; intros b c; cbn; auto. rewrite IH. auto. Qed.
Lemma not_weights : forall n, str_int (Z.of_nat n) <> "weights".
Proof.
  intros n H. assert (Hi : In "w"%char (la (str_int (Z.of_nat n)))) by (rewrite H; cbn; auto).
  apply str_int_digits in Hi; [discriminate|lia].
Qed.

Lemma in_bs_dists : forall r q c p o, In (p, o) (bs_dists_caches r q c) <->
    exists nf, nf < q /\ p = Distribution r nf /\ o = cache_name c (str_int (Z.of_nat nf)).
Proof.
  intros r q c p o. unfold bs_dists_caches. rewrite in_map_iff. split.
  - intros (nf & E & H). injection E as <- <-. apply in_seq in H. exists nf. split; [lia|auto].
  - intros (nf & H & -> & ->). exists nf. split; auto. apply in_seq. lia.
Qed.
Lemma in_bs_params : forall n q c p o, In (p, o) (bs_param_dists_caches n q c) <->
    exists r nf, r < n /\ nf < q /\ p = Distribution r nf /\
      o = cache_name (given_name (cache_name c (str_int (Z.of_nat r)))) (str_int (Z.of_nat nf)).
Proof.
  intros n q c p o. unfold bs_param_dists_caches. rewrite in_flat_map. split.
  - intros (r & Hr & H). apply in_rev, in_seq in Hr. apply in_bs_dists in H as (nf & H & -> & ->). exists r, nf. split; [lia|auto].
  - intros (r & nf & Hr & H & -> & ->). exists r. split; [apply -> in_rev; apply in_seq; lia|]. apply in_bs_dists. eauto.
Qed.
Lemma in_logx : forall n q c p o, In (p, o) (param_logx_diagram_caches n q c) <->
    exists r, r < n /\ ((p = Weights r /\ o = cache_name c (str_int (Z.of_nat r) ++ "_weights")) \/
                        exists nf, nf < q /\ p = Distribution r nf /\ o = cache_name c (str_int (Z.of_nat nf))).
Proof.
  intros n q c p o. unfold param_logx_diagram_caches. rewrite in_flat_map. split.
  - intros (r & Hr & H). apply in_rev, in_seq in Hr. exists r. split; [lia|]. destruct H as [E|H]; [left; injection E as <- <-; auto|].
    right. apply in_bs_dists in H. auto.
  - intros (r & Hr & H). exists r. split; [apply -> in_rev; apply in_seq; lia|]. destruct H as [[-> ->]|H]; [left; auto|].
    right. apply in_bs_dists. auto.
Qed.

(** Without a string there are no caches. *)
Theorem C106_none : forall n q c, (forall s, c <> CStr s) ->
    (forall p o, In (p, o) (bs_param_dists_caches n q c) -> o = None) /\
    (forall p o, In (p, o) (param_logx_diagram_caches n q c) -> o = None).
Proof.
  intros n q c Hc. assert (Hn : forall t, cache_name c t = None) by (intros t; destruct c; auto; exfalso; eapply Hc; eauto). split.
  - intros p o H. apply in_bs_params in H as (r & nf & _ & _ & _ & ->). rewrite Hn. reflexivity.
  - intros p o H. apply in_logx in H as (r & _ & [[_ ->]|(nf & _ & _ & ->)]); auto.
Qed.
Print Assumptions C106_none.

(** bs_param_dists: each run and quantity has a cache of its own, whose name
    begins with the string given. *)
Theorem C106_bs_param_dists : forall n q s,
    (forall p, (exists o, In (p, o) (bs_param_dists_caches n q (CStr s))) <-> in_range n q p /\ is_distribution p) /\
    (forall p o, In (p, o) (bs_param_dists_caches n q (CStr s)) -> exists t, o = Some (s ++ "_" ++ t)) /\
    (forall p p' o, In (p, o) (bs_param_dists_caches n q (CStr s)) -> In (p', o) (bs_param_dists_caches n q (CStr s)) -> p = p').
Proof.
  intros n q s. split; [|split].
  - intros p. split.
    + intros (o & H). apply in_bs_params in H as (r & nf & H1 & H2 & -> & _). cbn. auto.
    + intros (H & H'). destruct p as [r|r nf]; [contradiction|]. cbn in H. eexists. apply in_bs_params. exists r, nf. intuition.
  - intros p o H. apply in_bs_params in H as (r & nf & _ & _ & _ & ->). cbn. rewrite str_app_assoc. cbn. eauto.
  - intros p p' o H H'. apply in_bs_params in H as (r & nf & _ & _ & -> & ->). apply in_bs_params in H' as (r' & nf' & _ & _ & -> & E).
    cbn [cache_name given_name] in E. injection E as E. apply name_inj in E as [E1 E2]; try apply no_underscore.
    apply name_inj in E1 as [_ E1]; try apply no_underscore. apply str_nat_inj in E1, E2. congruence.
Qed.
Print Assumptions C106_bs_param_dists.

(** param_logx_diagram: the weights of the runs have caches of their own, and
    so have the quantities; the quantities of different runs share them. *)
Theorem C106_param_logx_diagram : forall n q s,
    (forall p, (exists o, In (p, o) (param_logx_diagram_caches n q (CStr s))) <-> in_range n q p) /\
    (forall p o, In (p, o) (param_logx_diagram_caches n q (CStr s)) -> exists t, o = Some (s ++ "_" ++ t)) /\
    (forall r p o, In (Weights r, o) (param_logx_diagram_caches n q (CStr s)) -> In (p, o) (param_logx_diagram_caches n q (CStr s)) ->
       p = Weights r) /\
    (forall r r' f f' o o', In (Distribution r f, o) (param_logx_diagram_caches n q (CStr s)) ->
       In (Distribution r' f', o') (param_logx_diagram_caches n q (CStr s)) -> (o = o' <-> f = f')).
Proof.
  intros n q s. split; [|split; [|split]].
  - intros p. split.
    + intros (o & H). apply in_logx in H as (r & H1 & [[-> _]|(nf & H2 & -> & _)]); cbn; auto.
    + intros H. destruct p as [r|r nf]; cbn in H; eexists; apply in_logx; exists r; intuition eauto 6.
  - intros p o H. apply in_logx in H as (r & _ & [[_ ->]|(nf & _ & _ & ->)]); cbn; eauto.
  - intros r p o H H'. apply in_logx in H as (r1 & _ & [[E ->]|(nf & _ & E & _)]); [injection E as <-|discriminate].
    apply in_logx in H' as (r2 & _ & [[-> E]|(nf & _ & -> & E)]); cbn [cache_name] in E; injection E as E.
    + change "_weights" with ("_" ++ "weights") in E.
      assert (Hw : forall k, s ++ String "_" (str_int (Z.of_nat k) ++ "_" ++ "weights") = (s ++ "_" ++ str_int (Z.of_nat k)) ++ "_" ++ "weights")
        by (intros k; rewrite !str_app_assoc; reflexivity).
      rewrite !Hw in E. apply (name_inj _ _ "weights" "weights") in E as [E _]; try (cbn; intuition discriminate).
      apply name_inj in E as [_ E]; try apply no_underscore. apply str_nat_inj in E. congruence.
    + exfalso. change "_weights" with ("_" ++ "weights") in E.
      replace (s ++ String "_" (str_int (Z.of_nat r) ++ "_" ++ "weights")) with ((s ++ "_" ++ str_int (Z.of_nat r)) ++ "_" ++ "weights") in E
        by (rewrite !str_app_assoc; reflexivity).
      apply (name_inj _ s "weights" (str_int (Z.of_nat nf))) in E as [_ E]; [|cbn; intuition discriminate|apply no_underscore].
      symmetry in E. apply not_weights in E. auto.
  - intros r r' f f' o o' H H'. apply in_logx in H as (r1 & _ & [[E _]|(nf & _ & E & ->)]); [discriminate|injection E as <- <-].
    apply in_logx in H' as (r2 & _ & [[E _]|(nf' & _ & E & ->)]); [discriminate|injection E as <- <-]. cbn [cache_name]. split.
    + intros E. injection E as E. apply name_inj in E as [_ E]; try apply no_underscore. apply str_nat_inj. auto.
    + intros ->. auto.
Qed.
Print Assumptions C106_param_logx_diagram.

(** So for two runs and a quantity the claim of bs_param_dists fails. *)
Theorem C106_param_logx_diagram_refuted : forall n q s, 2 <= n -> 1 <= q ->
    exists p p' o, p <> p' /\ In (p, o) (param_logx_diagram_caches n q (CStr s)) /\ In (p', o) (param_logx_diagram_caches n q (CStr s)).
Proof.
  intros n q s Hn Hq. exists (Distribution 0 0), (Distribution 1 0), (Some (s ++ "_0")). split; [discriminate|].
  split; apply in_logx; [exists 0|exists 1]; (split; [lia|]); right; exists 0; auto.
Qed.
Print Assumptions C106_param_logx_diagram_refuted.

(** The two functions with the same string do not share caches, but they may
    with different strings. *)
Theorem C106_both : forall n q n' q' s p p' o, In (p, o) (bs_param_dists_caches n q (CStr s)) ->
    ~ In (p', o) (param_logx_diagram_caches n' q' (CStr s)).
Proof.
  intros n q n' q' s p p' o H H'. apply in_bs_params in H as (r & nf & _ & _ & -> & ->).
  cbn [cache_name given_name] in H'. apply in_logx in H' as (r2 & _ & [[-> E]|(nf' & _ & -> & E)]); cbn [cache_name] in E; injection E as E.
  - change "_weights" with ("_" ++ "weights") in E.
    replace (s ++ String "_" (str_int (Z.of_nat r2) ++ "_" ++ "weights")) with ((s ++ "_" ++ str_int (Z.of_nat r2)) ++ "_" ++ "weights") in E
      by (rewrite !str_app_assoc; reflexivity).
    apply (name_inj _ _ (str_int (Z.of_nat nf)) "weights") in E as [_ E]; [|apply no_underscore|cbn; intuition discriminate].
    apply not_weights in E. auto.
  - apply (name_inj _ s (str_int (Z.of_nat nf)) (str_int (Z.of_nat nf'))) in E as [E _]; try apply no_underscore.
    apply (f_equal la) in E. rewrite la_append in E. apply (f_equal (@length _)) in E. rewrite app_length in E. cbn in E. lia.
Qed.
Print Assumptions C106_both.
Theorem C106_roots_refuted : exists s s' o, s <> s' /\ In (Distribution 0 1, o) (bs_param_dists_caches 1 2 (CStr s)) /\
    In (Distribution 0 1, o) (param_logx_diagram_caches 1 2 (CStr s')).
Proof. exists "a", "a_0", (Some "a_0_1"). split; [discriminate|]. cbn. auto. Qed.
Print Assumptions C106_roots_refuted.

Example C106_example : bs_param_dists_caches 2 2 (CStr "c") =
  [(Distribution 1 0, Some "c_1_0"); (Distribution 1 1, Some "c_1_1"); (Distribution 0 0, Some "c_0_0"); (Distribution 0 1, Some "c_0_1")] /\
  param_logx_diagram_caches 2 1 (CStr "c") =
  [(Weights 1, Some "c_1_weights"); (Distribution 1 0, Some "c_0"); (Weights 0, Some "c_0_weights"); (Distribution 0 0, Some "c_0")] /\
  (forall s, CNone <> CStr s).
Proof. split; [reflexivity|]. split; [reflexivity|discriminate]. Qed.
