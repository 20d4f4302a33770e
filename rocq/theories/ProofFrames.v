(** Lemmas on sorted rows and on orders of labels. *)
From Coq Require Import String Ascii NArith Sorted.
From Verif Require Import Base ModelRun ModelBoot ModelReal ModelStats Spec ProofBase ModelFrames.
Local Open Scope list_scope.
Local Open Scope nat_scope.

(** ** sort_rows *)
Lemma insert_perm : forall K V (le : K -> K -> bool) (p : K * V) d, Permutation (insert_row le p d) (p :: d).
Proof.
  induction d as [|q d IH]; cbn [insert_row]; auto. destruct (le (fst p) (fst q)); auto.
  rewrite IH. apply perm_swap.
Qed.
Lemma sort_perm : forall K V (le : K -> K -> bool) (d : list (K * V)), Permutation (sort_rows le d) d.
Proof. induction d as [|p d IH]; cbn; auto. rewrite insert_perm. auto. Qed.
Lemma insert_sorted : forall K V (le : K -> K -> bool) (p : K * V) d,
    (forall a b, le a b = true \/ le b a = true) -> (forall a b c, le a b = true -> le b c = true -> le a c = true) ->
    StronglySorted (fun p q => le (fst p) (fst q) = true) d ->
    StronglySorted (fun p q => le (fst p) (fst q) = true) (insert_row le p d).
Proof.
  intros K V le p d Ht Htr. induction 1 as [|q d Hs IH Hf]; cbn [insert_row]; [repeat constructor|].
  destruct (le (fst p) (fst q)) eqn:E.
  - constructor; [constructor; auto|]. constructor; auto. eapply Forall_impl; [|exact Hf]. intros a Ha. eauto.
  - constructor; auto. rewrite insert_perm. constructor; auto. destruct (Ht (fst p) (fst q)); congruence.
Qed.
Lemma sort_sorted : forall K V (le : K -> K -> bool) (d : list (K * V)),
    (forall a b, le a b = true \/ le b a = true) -> (forall a b c, le a b = true -> le b c = true -> le a c = true) ->
    StronglySorted (fun p q => le (fst p) (fst q) = true) (sort_rows le d).
Proof. intros K V le d Ht Htr. induction d as [|p d IH]; cbn; [constructor|]. apply insert_sorted; auto. Qed.
Lemma insert_place : forall K V (le : K -> K -> bool) (p : K * V) l1 l2,
    Forall (fun x => le (fst p) (fst x) = false) l1 -> Forall (fun x => le (fst p) (fst x) = true) l2 ->
    insert_row le p (l1 ++ l2) = l1 ++ p :: l2.
Proof.
  induction 1 as [|x l1 Hx H1 IH]; intros H2; cbn [app insert_row].
  - destruct H2 as [|y l2 Hy _]; cbn [insert_row]; auto. rewrite Hy. auto.
  - rewrite Hx, IH; auto.
Qed.
Lemma ssorted_app : forall A (P : A -> A -> Prop) l1 l2, StronglySorted P (l1 ++ l2) ->
    StronglySorted P l1 /\ StronglySorted P l2 /\ Forall (fun x => Forall (P x) l2) l1.
Proof.
  induction l1 as [|x l1 IH]; cbn; intros l2 H; [repeat split; auto; constructor|].
  inversion_clear H as [|? ? Hs Hf]. apply Forall_app in Hf. destruct Hf as [Hf1 Hf2]. destruct (IH _ Hs) as (A1 & A2 & A3).
  repeat split; auto; constructor; auto.
Qed.
Lemma ssorted_app_intro : forall A (P : A -> A -> Prop) l1 l2, StronglySorted P l1 -> StronglySorted P l2 ->
    Forall (fun x => Forall (P x) l2) l1 -> StronglySorted P (l1 ++ l2).
Proof.
  induction l1 as [|x l1 IH]; cbn; intros l2 H1 H2 H3; auto. inversion_clear H1. inversion_clear H3.
  constructor; [apply IH; auto|]. apply Forall_app; auto.
Qed.
(** A list with strictly increasing labels is the result of sorting. *)
Lemma sort_unique : forall K V (le : K -> K -> bool) (l l' : list (K * V)),
    (forall a b, le a b = true \/ le b a = true) ->
    StronglySorted (fun p q => le (fst q) (fst p) = false) l' -> Permutation l l' -> sort_rows le l = l'.
Proof.
  intros K V le l l' Ht. revert l'. induction l as [|p l IH]; intros l' Hs Hp.
  - apply Permutation_nil in Hp. subst. auto.
  - assert (Hin : In p l') by (eapply Permutation_in; [exact Hp|left; auto]).
    apply in_split in Hin. destruct Hin as (l1 & l2 & ->).
    apply Permutation_cons_app_inv in Hp. apply ssorted_app in Hs. destruct Hs as (S1 & S2 & S12).
    inversion_clear S2 as [|? ? S3 S4].
    cbn. fold (sort_rows le l). rewrite (IH (l1 ++ l2)); auto.
    + apply insert_place.
      * eapply Forall_impl; [|exact S12]. intros x Hx. inversion_clear Hx. auto.
      * eapply Forall_impl; [|exact S4]. cbn. intros x Hx. destruct (Ht (fst p) (fst x)); congruence.
    + apply ssorted_app_intro; auto. eapply Forall_impl; [|exact S12]. intros x Hx. inversion_clear Hx. auto.
Qed.
Lemma lex_total : forall c1 c2 n1 n2, (n1 = true \/ n2 = true) -> lex c1 c2 n1 = true \/ lex c2 c1 n2 = true.
Proof.
  intros c1 c2 n1 n2 Hn. unfold lex. destruct (Nat.ltb_spec c1 c2); auto. destruct (Nat.ltb_spec c2 c1); auto.
  assert (c1 = c2) by lia. subst. rewrite Nat.eqb_refl. destruct Hn as [-> | ->]; auto.
Qed.
Lemma leb_total : forall a b, (a <=? b) = true \/ (b <=? a) = true.
Proof. intros. destruct (Nat.leb_spec a b); auto. right. apply Nat.leb_le. lia. Qed.

(** ** Orders of strings and of lists of strings *)
Lemma scompare_refl : forall s, String.compare s s = Eq.
Proof.
  induction s as [|c s IH]; cbn; auto. unfold Ascii.compare. rewrite N.compare_refl. auto.
Qed.
Lemma scompare_trans : forall a b c, String.compare a b = Lt -> String.compare b c = Lt -> String.compare a c = Lt.
Proof.
  induction a as [|x a IH]; destruct b as [|y b]; destruct c as [|z c]; cbn; try discriminate; auto.
  unfold Ascii.compare.
  destruct (N.compare_spec (N_of_ascii x) (N_of_ascii y)); destruct (N.compare_spec (N_of_ascii y) (N_of_ascii z));
    destruct (N.compare_spec (N_of_ascii x) (N_of_ascii z)); try discriminate; try lia; auto; eauto.
Qed.
Lemma scompare_antisym : forall a b, String.compare a b = Gt -> String.compare b a = Lt.
Proof. intros a b H. rewrite String.compare_antisym, H. auto. Qed.

(** [a] comes before [b], lists of the same length: the first elements which
    differ are in increasing order. *)
Inductive before : list string -> list string -> Prop :=
| before_here : forall x y a b, String.compare x y = Lt -> length a = length b -> before (x :: a) (y :: b)
| before_later : forall x a b, before a b -> before (x :: a) (x :: b).

Lemma sle_refl : forall a, string_list_le a a = true.
Proof. induction a as [|x a IH]; cbn; auto. rewrite scompare_refl. auto. Qed.
Lemma sle_total : forall a b, string_list_le a b = true \/ string_list_le b a = true.
Proof.
  induction a as [|x a IH]; destruct b as [|y b]; cbn; auto.
  destruct (String.compare x y) eqn:E; auto.
  - apply String.compare_eq_iff in E. subst. rewrite scompare_refl. auto.
  - apply scompare_antisym in E. rewrite E. auto.
Qed.
Lemma sle_trans : forall a b c, string_list_le a b = true -> string_list_le b c = true -> string_list_le a c = true.
Proof.
  induction a as [|x a IH]; destruct b as [|y b]; destruct c as [|z c]; cbn; auto; try discriminate.
  destruct (String.compare x y) eqn:E; try discriminate.
  - apply String.compare_eq_iff in E. subst. destruct (String.compare y z) eqn:E'; try discriminate; auto. apply IH.
  - intros _. destruct (String.compare y z) eqn:E'; try discriminate.
    + apply String.compare_eq_iff in E'. subst. rewrite E. auto.
    + intros _. rewrite (scompare_trans _ _ _ E E'). auto.
Qed.
Lemma sle_before : forall a b, length a = length b -> a <> b -> string_list_le a b = true -> before a b.
Proof.
  induction a as [|x a IH]; destruct b as [|y b]; cbn; intros Hl Hn H; try discriminate; [congruence|].
  destruct (String.compare x y) eqn:E; try discriminate.
  - apply String.compare_eq_iff in E. subst. apply before_later. apply IH; [lia|congruence|auto].
  - apply before_here; [auto|lia].
Qed.
