(** Lemmas on the list operations of Base.v. *)
From Verif Require Import Base.

(** ** where_ *)
Lemma in_where_from : forall A (p : A -> bool) d l k i,
    In i (where_from p k l) <->
    (k <= i < k + length l)%nat /\ p (nth (i - k) l d) = true.
Proof.
  induction l as [|x t IH]; intros k i; simpl.
  - split; [tauto | lia].
  - destruct (p x) eqn:Hp; simpl; rewrite ?IH.
    + split.
      * intros [->|[H1 H2]].
        -- replace (i - i)%nat with 0%nat by lia. split; [lia|auto].
        -- replace (i - k)%nat with (S (i - S k)) by lia. split; [lia|auto].
      * intros [H1 H2]. destruct (Nat.eq_dec k i) as [->|]; [auto|right].
        replace (i - k)%nat with (S (i - S k)) in H2 by lia. split; [lia|auto].
    + split.
      * intros [H1 H2].
        replace (i - k)%nat with (S (i - S k)) by lia. split; [lia|auto].
      * intros [H1 H2]. destruct (Nat.eq_dec k i) as [->|].
        -- replace (i - i)%nat with 0%nat in H2 by lia. congruence.
        -- replace (i - k)%nat with (S (i - S k)) in H2 by lia. split; [lia|auto].
Qed.

Lemma in_where : forall A (p : A -> bool) d l i,
    In i (where_ p l) <-> (i < length l)%nat /\ p (nth i l d) = true.
Proof.
  intros. unfold where_. rewrite (in_where_from _ p d).
  replace (i - 0)%nat with i by lia. split; intros [? ?]; split; auto; lia.
Qed.

Lemma where_from_lb : forall A (p : A -> bool) l k i,
    In i (where_from p k l) -> (k <= i)%nat.
Proof.
  induction l as [|x t IH]; simpl; intros k i H; [tauto|].
  destruct (p x); simpl in H.
  - destruct H as [->|H]; [lia|apply IH in H; lia].
  - apply IH in H; lia.
Qed.

Lemma where_from_sorted : forall A (p : A -> bool) l k,
    StronglySorted lt (where_from p k l).
Proof.
  induction l as [|x t IH]; simpl; intros k; [constructor|].
  destruct (p x); auto. constructor; auto.
  apply Forall_forall. intros i Hi. apply where_from_lb in Hi. lia.
Qed.
Lemma where_sorted : forall A (p : A -> bool) l, StronglySorted lt (where_ p l).
Proof. intros; apply where_from_sorted. Qed.

Lemma ssorted_lt_NoDup : forall l, StronglySorted lt l -> NoDup l.
Proof.
  induction 1 as [|x l H IH F]; constructor; auto.
  intros Hin. rewrite Forall_forall in F. apply F in Hin. lia.
Qed.
Lemma where_NoDup : forall A (p : A -> bool) l, NoDup (where_ p l).
Proof. intros. apply ssorted_lt_NoDup, where_sorted. Qed.

Lemma where_from_length : forall A (p : A -> bool) l k,
    length (where_from p k l) = countb p l.
Proof.
  induction l as [|x t IH]; simpl; intros k; auto.
  destruct (p x); simpl; auto.
Qed.
Lemma where_length : forall A (p : A -> bool) l, length (where_ p l) = countb p l.
Proof. intros. apply where_from_length. Qed.

(** ** countb *)
Lemma countb_filter : forall A (p : A -> bool) l, countb p l = length (filter p l).
Proof. induction l as [|x t IH]; simpl; auto. destruct (p x); simpl; auto. Qed.

Lemma countb_app : forall A (p : A -> bool) l m,
    countb p (l ++ m) = (countb p l + countb p m)%nat.
Proof. induction l as [|x t IH]; simpl; intros; auto. rewrite IH. destruct (p x); lia. Qed.

Lemma countb_perm : forall A (p : A -> bool) l m,
    Permutation l m -> countb p l = countb p m.
Proof.
  induction 1; simpl; auto; try congruence.
  - destruct (p x); congruence.
  - destruct (p x), (p y); auto.
Qed.

Lemma countb_ext : forall A (p q : A -> bool) l,
    (forall x, In x l -> p x = q x) -> countb p l = countb q l.
Proof.
  induction l as [|x t IH]; simpl; intros H; auto.
  rewrite (H x), IH; auto.
Qed.

Lemma countb_map : forall A B (f : A -> B) p l,
    countb p (map f l) = countb (fun x => p (f x)) l.
Proof. induction l as [|x t IH]; simpl; auto. rewrite IH; auto. Qed.

Lemma countb_le : forall A (p : A -> bool) l, (countb p l <= length l)%nat.
Proof. induction l as [|x t IH]; simpl; auto. destruct (p x); lia. Qed.

Lemma countb_true : forall A (p : A -> bool) l,
    (forall x, In x l -> p x = true) -> countb p l = length l.
Proof.
  induction l as [|x t IH]; simpl; intros H; auto.
  rewrite (H x), IH; auto.
Qed.
Lemma countb_false : forall A (p : A -> bool) l,
    (forall x, In x l -> p x = false) -> countb p l = 0%nat.
Proof.
  induction l as [|x t IH]; simpl; intros H; auto.
  rewrite (H x), IH; auto.
Qed.
Lemma countb_pos : forall A (p : A -> bool) l,
    (0 < countb p l)%nat <-> exists x, In x l /\ p x = true.
Proof.
  induction l as [|x t IH]; simpl.
  - split; [lia|]. intros [x [[] _]].
  - destruct (p x) eqn:Hp.
    + split; [intros _; exists x; auto | lia].
    + rewrite IH. split; intros [y [H1 H2]]; exists y; intuition congruence.
Qed.
Lemma countb_zero : forall A (p : A -> bool) l,
    countb p l = 0%nat <-> forall x, In x l -> p x = false.
Proof.
  intros. split.
  - intros H x Hx. destruct (p x) eqn:Hp; auto.
    assert (0 < countb p l)%nat by (apply countb_pos; eauto). lia.
  - apply countb_false.
Qed.

Lemma countb_split : forall A (p q : A -> bool) l,
    countb p l = (countb (fun x => p x && q x) l
                  + countb (fun x => p x && negb (q x)) l)%nat.
Proof.
  induction l as [|x t IH]; simpl; auto.
  destruct (p x), (q x); simpl; lia.
Qed.

Lemma countb_mono : forall A (p q : A -> bool) l,
    (forall x, In x l -> p x = true -> q x = true) ->
    (countb p l <= countb q l)%nat.
Proof.
  induction l as [|x t IH]; simpl; intros H; auto.
  assert (countb p t <= countb q t)%nat by auto.
  destruct (p x) eqn:Hp; [rewrite (H x); auto; lia | destruct (q x); lia].
Qed.

Lemma countb_flat_map : forall A B (f : A -> list B) p l,
    countb p (flat_map f l) = fold_right Nat.add 0%nat (map (fun x => countb p (f x)) l).
Proof.
  induction l as [|x t IH]; simpl; auto. rewrite countb_app, IH; auto.
Qed.

(** ** upd *)
Lemma upd_length : forall A (x : A) l i, length (upd i x l) = length l.
Proof. induction l as [|y t IH]; destruct i; simpl; auto. Qed.

Lemma nth_upd : forall A (x d : A) l i j,
    nth j (upd i x l) d =
    if ((j =? i) && (i <? length l))%nat then x else nth j l d.
Proof.
  induction l as [|y t IH]; intros i j; simpl.
  - destruct j, i; simpl; rewrite ?andb_false_r; auto.
  - destruct i, j; simpl; auto. rewrite IH. auto.
Qed.
Lemma nth_upd_same : forall A (x d : A) l i,
    (i < length l)%nat -> nth i (upd i x l) d = x.
Proof.
  intros. rewrite nth_upd, Nat.eqb_refl. apply Nat.ltb_lt in H as ->. auto.
Qed.
Lemma nth_upd_other : forall A (x d : A) l i j,
    j <> i -> nth j (upd i x l) d = nth j l d.
Proof. intros. rewrite nth_upd. apply Nat.eqb_neq in H as ->. auto. Qed.

Lemma countb_upd : forall A (p : A -> bool) x d l i,
    (i < length l)%nat ->
    (countb p (upd i x l) + (if p (nth i l d) then 1 else 0)
     = countb p l + (if p x then 1 else 0))%nat.
Proof.
  induction l as [|y t IH]; simpl; intros i Hi; [lia|].
  destruct i; simpl.
  - destruct (p x), (p y); lia.
  - specialize (IH i ltac:(lia)). destruct (p y); lia.
Qed.

Lemma upd_map : forall A B (f : A -> B) x l i, map f (upd i x l) = upd i (f x) (map f l).
Proof. induction l as [|y t IH]; destruct i; simpl; auto. rewrite IH; auto. Qed.

Lemma upd_id : forall A (d : A) l i, upd i (nth i l d) l = l.
Proof. induction l as [|y t IH]; destruct i; simpl; auto. rewrite IH; auto. Qed.

(** ** nth / ext *)
Lemma nth_ext' : forall A (d : A) l m,
    length l = length m ->
    (forall i, (i < length l)%nat -> nth i l d = nth i m d) -> l = m.
Proof. intros. eapply nth_ext; eauto. Qed.

Lemma map_nth_in : forall A B (f : A -> B) d d' l i,
    (i < length l)%nat -> nth i (map f l) d = f (nth i l d').
Proof.
  intros. rewrite nth_indep with (d' := f d') by (rewrite map_length; auto).
  apply map_nth.
Qed.

Lemma nth_map_seq : forall A (f : nat -> A) d n i,
    (i < n)%nat -> nth i (map f (seq 0 n)) d = f i.
Proof.
  intros. rewrite (map_nth_in _ _ f d 0%nat) by (rewrite seq_length; auto).
  rewrite seq_nth; auto.
Qed.

Lemma list_as_map : forall A (d : A) l,
    l = map (fun i => nth i l d) (seq 0 (length l)).
Proof.
  intros. apply nth_ext' with (d := d).
  - rewrite map_length, seq_length; auto.
  - intros. rewrite nth_map_seq; auto.
Qed.

Lemma last_nth : forall A (d : A) l, last l d = nth (length l - 1) l d.
Proof.
  induction l as [|x t IH]; auto. destruct t; auto.
  change (last (x :: a :: t) d) with (last (a :: t) d). rewrite IH.
  simpl. rewrite Nat.sub_0_r. auto.
Qed.

Lemma last_in : forall A (d : A) l, l <> [] -> In (last l d) l.
Proof.
  intros. rewrite last_nth. apply nth_In. destruct l; [congruence|simpl; lia].
Qed.
Lemma hd_nth : forall A (d : A) l, hd d l = nth 0 l d.
Proof. destruct l; auto. Qed.
Lemma hd_in : forall A (d : A) l, l <> [] -> In (hd d l) l.
Proof. destruct l; simpl; [congruence|auto]. Qed.

Lemma item0_ok : forall A (d : A) l, l <> [] -> item0 l = Ok (nth 0 l d).
Proof. destruct l; simpl; congruence. Qed.
Lemma nil_dec : forall A (l : list A), {l = []} + {l <> []}.
Proof. destruct l; [left|right]; congruence. Qed.

(** ** Sorted lists *)
Lemma ssorted_nth : forall A (R : A -> A -> Prop) d l,
    StronglySorted R l <->
    forall i j, (i < j < length l)%nat -> R (nth i l d) (nth j l d).
Proof.
  induction l as [|x t IH].
  - split; [simpl; intros; lia|constructor].
  - split.
    + intros H i j Hij. inversion H; subst. simpl in Hij.
      destruct j; [lia|]. destruct i; simpl.
      * rewrite Forall_forall in H3. apply H3, nth_In. lia.
      * apply IH; auto. lia.
    + intros H. constructor.
      * apply IH. intros i j Hij. apply (H (S i) (S j)). simpl; lia.
      * apply Forall_forall. intros y Hy.
        destruct (In_nth _ _ d Hy) as [k [Hk <-]].
        apply (H 0%nat (S k)). simpl; lia.
Qed.

Lemma ssorted_le_nth_le : forall l i j,
    StronglySorted Z.le l -> (i <= j < length l)%nat -> nth i l 0 <= nth j l 0.
Proof.
  intros l i j H Hij. destruct (Nat.eq_dec i j) as [->|]; [lia|].
  apply (proj1 (ssorted_nth _ _ 0 l) H). lia.
Qed.

Lemma ssorted_perm_eq : forall A (R : A -> A -> Prop) l m,
    (forall x y, In x l -> In y l -> R x y -> R y x -> x = y) ->
    StronglySorted R l -> StronglySorted R m -> Permutation l m -> l = m.
Proof.
  induction l as [|x l IH]; intros m Hanti Hl Hm Hp.
  - apply Permutation_nil in Hp. auto.
  - destruct m as [|y m]; [apply Permutation_sym, Permutation_nil in Hp; congruence|].
    inversion Hl as [|? ? Hl' Fl]; subst. inversion Hm as [|? ? Hm' Fm]; subst.
    assert (x = y).
    { assert (Hx : In x (y :: m)) by (eapply Permutation_in; eauto; left; auto).
      assert (Hy : In y (x :: l)) by
        (eapply Permutation_in; [apply Permutation_sym; eauto|left; auto]).
      destruct Hx as [|Hx]; auto. destruct Hy as [|Hy]; auto.
      rewrite Forall_forall in Fl, Fm.
      apply Hanti; simpl; auto. }
    subst. f_equal. apply IH; auto.
    + intros; apply Hanti; simpl; auto.
    + eapply Permutation_cons_inv; eauto.
Qed.

Lemma ssorted_map : forall A B (f : A -> B) (R : B -> B -> Prop) l,
    StronglySorted R (map f l) <-> StronglySorted (fun x y => R (f x) (f y)) l.
Proof.
  induction l as [|x t IH]; simpl; split; intros H; try constructor;
    inversion H; subst; try (apply IH; auto);
    rewrite Forall_map in * || idtac; auto.
Qed.

Lemma ssorted_weaken : forall A (R S : A -> A -> Prop) l,
    (forall x y, In x l -> In y l -> R x y -> S x y) ->
    StronglySorted R l -> StronglySorted S l.
Proof.
  induction l as [|x t IH]; intros H Hs; constructor; inversion Hs; subst.
  - apply IH; auto. intros; apply H; simpl; auto.
  - rewrite Forall_forall in *. intros y Hy. apply H; simpl; auto.
Qed.

Lemma ssorted_filter : forall A (R : A -> A -> Prop) p l,
    StronglySorted R l -> StronglySorted R (filter p l).
Proof.
  induction 1 as [|x l H IH F]; simpl; [constructor|].
  destruct (p x); auto. constructor; auto.
  rewrite Forall_forall in *. intros y Hy. apply filter_In in Hy. apply F; tauto.
Qed.

Lemma ssorted_app : forall A (R : A -> A -> Prop) l m,
    StronglySorted R l -> StronglySorted R m ->
    (forall x y, In x l -> In y m -> R x y) -> StronglySorted R (l ++ m).
Proof.
  induction l as [|x t IH]; simpl; intros m Hl Hm H; auto.
  inversion Hl; subst. constructor.
  - apply IH; auto.
  - apply Forall_app; split; auto. apply Forall_forall. intros; apply H; auto.
Qed.
Lemma ssorted_app_inv : forall A (R : A -> A -> Prop) l m,
    StronglySorted R (l ++ m) ->
    StronglySorted R l /\ StronglySorted R m /\
    (forall x y, In x l -> In y m -> R x y).
Proof.
  induction l as [|x t IH]; simpl; intros m H.
  - repeat split; auto; [constructor|tauto].
  - inversion H; subst. destruct (IH _ H2) as (H1 & H4 & H5).
    rewrite Forall_forall in H3.
    repeat split; auto.
    + constructor; auto. apply Forall_forall. intros; apply H3, in_or_app; auto.
    + intros a b [<-|Ha] Hb; [apply H3, in_or_app|]; auto.
Qed.

Lemma ssorted_seq : forall n k, StronglySorted lt (seq k n).
Proof.
  induction n; simpl; constructor; auto.
  apply Forall_forall. intros x Hx. apply in_seq in Hx. lia.
Qed.

(** position in a strictly sorted list = number of smaller elements *)
Lemma sorted_index_count : forall A (R : A -> A -> bool) d l i,
    (forall x, In x l -> R x x = false) ->
    (forall x y, In x l -> In y l -> R x y = true -> R y x = false) ->
    StronglySorted (fun x y => R x y = true) l ->
    (i < length l)%nat -> countb (fun x => R x (nth i l d)) l = i.
Proof.
  induction l as [|x t IH]; simpl; intros i Hirr Hasym Hs Hi; [lia|].
  inversion Hs; subst. rewrite Forall_forall in H2.
  destruct i.
  - rewrite Hirr; auto. apply countb_false. intros y Hy. apply Hasym; auto.
  - rewrite H2 by (apply nth_In; lia). f_equal. apply IH; auto. lia.
Qed.

(** ** argsort *)
Lemma take_length : forall A (d : A) l idx, length (take d l idx) = length idx.
Proof. intros; apply map_length. Qed.
Lemma take_map : forall A B (f : A -> B) d d' l idx,
    (forall i, In i idx -> (i < length l)%nat) ->
    map f (take d l idx) = take d' (map f l) idx.
Proof.
  intros. unfold take. rewrite map_map. apply map_ext_in. intros.
  symmetry; apply map_nth_in; auto.
Qed.
Lemma take_perm : forall A (d : A) l idx,
    Permutation idx (seq 0 (length l)) -> Permutation (take d l idx) l.
Proof.
  intros. rewrite (list_as_map _ d l) at 2. unfold take. apply Permutation_map. auto.
Qed.
Lemma argsort_length : forall E l, length (argsort E l) = length l.
Proof.
  intros. rewrite (Permutation_length (argsort_perm E l)). apply seq_length.
Qed.
Lemma argsort_lt : forall E l i, In i (argsort E l) -> (i < length l)%nat.
Proof.
  intros. apply (Permutation_in _ (argsort_perm E l)), in_seq in H. lia.
Qed.

(** Sorting a list of records by a key. *)
Definition sort_by {A} (E : env) (d : A) (key : A -> Z) (l : list A) : list A :=
  take d l (argsort E (map key l)).
Lemma sort_by_perm : forall A E (d : A) key l, Permutation (sort_by E d key l) l.
Proof.
  intros. apply take_perm.
  rewrite (argsort_perm E (map key l)), map_length. auto.
Qed.
Lemma sort_by_sorted : forall A E (d : A) key l,
    StronglySorted Z.le (map key (sort_by E d key l)).
Proof.
  intros. unfold sort_by. rewrite take_map with (d' := 0).
  - apply argsort_sorted.
  - intros i Hi. apply argsort_lt in Hi. rewrite map_length in Hi; auto.
Qed.

Lemma ascending_argsort : forall E l,
    list_eqb l (take 0 l (argsort E l)) = true <-> StronglySorted Z.le l.
Proof.
  assert (Heq : forall l m, list_eqb l m = true <-> l = m).
  { induction l as [|x t IH]; destruct m; simpl; split; intros H; try congruence; auto.
    - apply andb_prop in H as [H1 H2]. apply Z.eqb_eq in H1. apply IH in H2. congruence.
    - inversion H; subst. rewrite Z.eqb_refl. apply IH; auto. }
  intros. rewrite Heq. split.
  - intros ->. apply argsort_sorted.
  - intros H. apply ssorted_perm_eq with (R := Z.le); auto.
    + intros; lia.
    + apply argsort_sorted.
    + apply Permutation_sym, take_perm, argsort_perm.
Qed.

Lemma list_eqb_eq : forall l m, list_eqb l m = true <-> l = m.
Proof.
  induction l as [|x t IH]; destruct m; simpl; split; intros H; try congruence; auto.
  - apply andb_prop in H as [H1 H2]. apply Z.eqb_eq in H1. apply IH in H2. congruence.
  - inversion H; subst. rewrite Z.eqb_refl. apply IH; auto.
Qed.

(** ** unique *)
Lemma in_insert_u : forall x l y, In y (insert_u x l) <-> y = x \/ In y l.
Proof.
  induction l as [|z t IH]; simpl; intros y; [intuition congruence|].
  destruct (x <? z) eqn:H1; simpl; [intuition congruence|].
  destruct (x =? z) eqn:H2; simpl.
  - apply Z.eqb_eq in H2. subst. intuition congruence.
  - rewrite IH. intuition congruence.
Qed.
Lemma in_unique : forall l y, In y (unique l) <-> In y l.
Proof.
  induction l as [|x t IH]; simpl; intros; [tauto|].
  rewrite in_insert_u, IH. intuition congruence.
Qed.
Lemma insert_u_sorted : forall x l,
    StronglySorted Z.lt l -> StronglySorted Z.lt (insert_u x l).
Proof.
  induction 1 as [|y l H IH F]; simpl; [repeat constructor|].
  destruct (x <? y) eqn:H1; [|destruct (x =? y) eqn:H2].
  - apply Z.ltb_lt in H1. constructor; [constructor; auto|].
    constructor; auto. eapply Forall_impl; [|eauto]. simpl; intros; lia.
  - constructor; auto.
  - apply Z.ltb_ge in H1. apply Z.eqb_neq in H2. constructor; auto.
    rewrite Forall_forall in *. intros z Hz. apply in_insert_u in Hz as [->|Hz]; [lia|auto].
Qed.
Lemma unique_sorted : forall l, StronglySorted Z.lt (unique l).
Proof. induction l; simpl; [constructor|apply insert_u_sorted; auto]. Qed.

Lemma ssorted_Zlt_ext : forall l m,
    StronglySorted Z.lt l -> StronglySorted Z.lt m ->
    (forall x, In x l <-> In x m) -> l = m.
Proof.
  induction l as [|x l IH]; intros m Hl Hm H.
  - destruct m as [|y m]; auto. exfalso. apply (proj2 (H y)). left; auto.
  - destruct m as [|y m]; [exfalso; apply (proj1 (H x)); left; auto|].
    inversion Hl as [|? ? Hl' Fl]; subst. inversion Hm as [|? ? Hm' Fm]; subst.
    rewrite Forall_forall in Fl, Fm.
    assert (x = y).
    { destruct (proj1 (H x) (or_introl eq_refl)) as [|H1]; auto.
      destruct (proj2 (H y) (or_introl eq_refl)) as [|H2]; auto.
      apply Fm in H1. apply Fl in H2. lia. }
    subst. f_equal. apply IH; auto. intros z. specialize (H z). simpl in H.
    split; intros Hz.
    + destruct (proj1 H (or_intror Hz)) as [->|]; auto. apply Fl in Hz. lia.
    + destruct (proj2 H (or_intror Hz)) as [->|]; auto. apply Fm in Hz. lia.
Qed.

Lemma ssorted_Zlt_NoDup : forall l, StronglySorted Z.lt l -> NoDup l.
Proof.
  induction 1 as [|x l H IH F]; constructor; auto.
  intros Hin. rewrite Forall_forall in F. apply F in Hin. lia.
Qed.
Lemma unique_NoDup : forall l, NoDup (unique l).
Proof. intros. apply ssorted_Zlt_NoDup, unique_sorted. Qed.

Lemma in_zrange : forall n x, In x (zrange n) <-> 0 <= x < Z.of_nat n.
Proof.
  intros. unfold zrange. rewrite in_map_iff. split.
  - intros [k [<- Hk]]. apply in_seq in Hk. lia.
  - intros. exists (Z.to_nat x). split; [lia|apply in_seq; lia].
Qed.
Lemma zrange_length : forall n, length (zrange n) = n.
Proof. intros. unfold zrange. rewrite map_length, seq_length; auto. Qed.
Lemma zrange_sorted : forall n, StronglySorted Z.lt (zrange n).
Proof.
  intros. apply ssorted_map. eapply ssorted_weaken; [|apply ssorted_seq].
  simpl; intros; lia.
Qed.
Lemma nth_zrange : forall n i, (i < n)%nat -> nth i (zrange n) 0 = Z.of_nat i.
Proof. intros. unfold zrange. rewrite nth_map_seq; auto. Qed.

Lemma unique_zrange : forall l n,
    (forall x, In x l <-> 0 <= x < Z.of_nat n) -> unique l = zrange n.
Proof.
  intros. apply ssorted_Zlt_ext.
  - apply unique_sorted.
  - apply zrange_sorted.
  - intros. rewrite in_unique, in_zrange. auto.
Qed.

Lemma insert_u_length : forall x l, ~ In x l -> length (insert_u x l) = S (length l).
Proof.
  induction l as [|y t IH]; simpl; intros H; auto.
  destruct (x <? y); auto. destruct (x =? y) eqn:He.
  - apply Z.eqb_eq in He. subst. tauto.
  - simpl. rewrite IH; tauto.
Qed.
Lemma insert_u_in : forall x l,
    StronglySorted Z.lt l -> In x l -> insert_u x l = l.
Proof.
  induction 1 as [|y l H IH F]; simpl; [tauto|]. intros [->|Hin].
  - rewrite Z.ltb_irrefl, Z.eqb_refl. auto.
  - rewrite Forall_forall in F. pose proof (F _ Hin).
    destruct (x <? y) eqn:H1; [apply Z.ltb_lt in H1; lia|].
    destruct (x =? y) eqn:H2; [auto|]. rewrite IH; auto.
Qed.
Lemma unique_length_NoDup : forall l, length (unique l) = length l <-> NoDup l.
Proof.
  assert (Hle : forall l, (length (unique l) <= length l)%nat).
  { induction l as [|x t IH]; simpl; auto.
    destruct (in_dec Z.eq_dec x (unique t)).
    - rewrite insert_u_in; auto. apply unique_sorted.
    - rewrite insert_u_length; auto. lia. }
  induction l as [|x t IH]; simpl; [split; auto; constructor|].
  destruct (in_dec Z.eq_dec x (unique t)) as [Hin|Hin].
  - rewrite insert_u_in; auto using unique_sorted. specialize (Hle t).
    split; intros H; [lia|]. inversion H; subst. rewrite in_unique in Hin. tauto.
  - rewrite insert_u_length; auto. split; intros H.
    + constructor; [rewrite in_unique in Hin; auto|]. apply IH. lia.
    + inversion H; subst. f_equal. apply IH; auto.
Qed.

(** ** min and max *)
Lemma min_list_spec : forall l, l <> [] ->
    In (min_list l) l /\ forall x, In x l -> min_list l <= x.
Proof.
  destruct l as [|a t]; [congruence|intros _]. simpl. revert a.
  induction t as [|b t IH]; simpl; intros a.
  - split; auto. intros x [->|[]]; lia.
  - destruct (IH (Z.min a b)) as [H1 H2]. split.
    + destruct H1 as [H1|H1]; [|auto]. rewrite <- H1. destruct (Z.min_spec a b); intuition.
    + intros x Hx. assert (fold_left Z.min t (Z.min a b) <= Z.min a b) by (apply H2; left; auto).
      destruct Hx as [->|[->|Hx]]; [lia|lia|]. apply H2; auto.
Qed.
Lemma max_list_spec : forall l, l <> [] ->
    In (max_list l) l /\ forall x, In x l -> x <= max_list l.
Proof.
  destruct l as [|a t]; [congruence|intros _]. simpl. revert a.
  induction t as [|b t IH]; simpl; intros a.
  - split; auto. intros x [->|[]]; lia.
  - destruct (IH (Z.max a b)) as [H1 H2]. split.
    + destruct H1 as [H1|H1]; [|auto]. rewrite <- H1. destruct (Z.max_spec a b); intuition.
    + intros x Hx. assert (Z.max a b <= fold_left Z.max t (Z.max a b)) by (apply H2; left; auto).
      destruct Hx as [->|[->|Hx]]; [lia|lia|]. apply H2; auto.
Qed.

Lemma min_list_sorted : forall l, StronglySorted Z.le l -> min_list l = nth 0 l 0.
Proof.
  intros l H. destruct l as [|x t]; auto. simpl.
  destruct (min_list_spec (x :: t)) as [H1 H2]; [congruence|].
  inversion H; subst. rewrite Forall_forall in H5.
  change (fold_left Z.min t x) with (min_list (x :: t)).
  assert (min_list (x :: t) <= x) by (apply H2; left; auto).
  destruct H1 as [H1|H1]; auto. apply H5 in H1. lia.
Qed.

(** ** cumsum and diff *)
Lemma zsum_app : forall l m, zsum (l ++ m) = zsum l + zsum m.
Proof. unfold zsum. induction l as [|x t IH]; simpl; intros; auto. rewrite IH; lia. Qed.
Lemma cumsum_from_length : forall l a, length (cumsum_from a l) = length l.
Proof. induction l; simpl; auto. Qed.
Lemma cumsum_from_nth : forall l a i, (i < length l)%nat ->
    nth i (cumsum_from a l) 0 = a + zsum (firstn (S i) l).
Proof.
  induction l as [|x t IH]; simpl; intros a i Hi; [lia|].
  destruct i; simpl.
  - lia.
  - rewrite IH by lia. simpl. destruct t; simpl in *; [lia|]. lia.
Qed.
Lemma cumsum_length : forall l, length (cumsum l) = length l.
Proof. intros; apply cumsum_from_length. Qed.
Lemma cumsum_nth : forall l i, (i < length l)%nat ->
    nth i (cumsum l) 0 = zsum (firstn (S i) l).
Proof. intros. unfold cumsum. rewrite cumsum_from_nth; auto. Qed.

Lemma diff_length : forall l, length (diff l) = pred (length l).
Proof.
  induction l as [|x t IH]; auto. destruct t; auto. simpl in *. rewrite IH; auto.
Qed.
Lemma diff_nth : forall l i, (S i < length l)%nat ->
    nth i (diff l) 0 = nth (S i) l 0 - nth i l 0.
Proof.
  induction l as [|x t IH]; simpl; intros i Hi; [lia|].
  destruct t as [|y u]; simpl in *; [lia|].
  destruct i; auto. apply IH. lia.
Qed.

Lemma but_last_length : forall A (l : list A), length (but_last l) = pred (length l).
Proof.
  unfold but_last. induction l as [|x t IH]; auto. destruct t; auto. simpl in *; rewrite IH; auto.
Qed.
Lemma but_last_nth : forall A (d : A) l i, (S i < length l)%nat ->
    nth i (but_last l) d = nth i l d.
Proof.
  unfold but_last. induction l as [|x t IH]; simpl; intros i Hi; [lia|].
  destruct t; simpl in *; [lia|]. destruct i; auto. apply IH. lia.
Qed.
Lemma but_last_firstn : forall A (l : list A), but_last l = firstn (pred (length l)) l.
Proof. intros. unfold but_last. apply removelast_firstn_len. Qed.
Lemma but_last_app : forall A (l : list A) x, but_last (l ++ [x]) = l.
Proof. intros; apply removelast_last. Qed.
Lemma but_last_last : forall A (d : A) l, l <> [] -> l = but_last l ++ [last l d].
Proof. intros; apply app_removelast_last; auto. Qed.

Lemma firstn_S_nth : forall A (d : A) l i, (i < length l)%nat ->
    firstn (S i) l = firstn i l ++ [nth i l d].
Proof.
  induction l as [|x t IH]; simpl; intros i Hi; [lia|].
  destruct i; simpl; auto. f_equal. apply IH. lia.
Qed.

(** ** delete *)
Lemma delete_perm : forall A (d : A) l i, (i < length l)%nat ->
    Permutation l (nth i l d :: delete i l).
Proof.
  induction l as [|x t IH]; simpl; intros i Hi; [lia|].
  destruct i; auto. rewrite (IH i) at 1 by lia. apply perm_swap.
Qed.
Lemma delete_length : forall A (l : list A) i, (i < length l)%nat ->
    length (delete i l) = pred (length l).
Proof.
  intros. destruct l as [|a t]; [simpl in *; lia|].
  pose proof (Permutation_length (delete_perm _ a (a :: t) i H)) as Hp.
  cbn [length] in Hp |- *. lia.
Qed.

(** ** monad *)
Lemma mapM_Ok : forall A B (f : A -> res B) l ys,
    mapM f l = Ok ys <-> Forall2 (fun x y => f x = Ok y) l ys.
Proof.
  induction l as [|x t IH]; simpl; intros ys.
  - split; [inversion 1; constructor | inversion 1; auto].
  - split.
    + destruct (f x) eqn:Hf; simpl; [|discriminate].
      destruct (mapM f t) eqn:Hm; simpl; [|discriminate].
      inversion 1; subst. constructor; auto. apply IH; auto.
    + inversion 1; subst. rewrite H2. simpl.
      apply IH in H4. rewrite H4. auto.
Qed.

Lemma foldM_app : forall A S (f : S -> A -> res S) l m s,
    foldM f (l ++ m) s = let! s' := foldM f l s in foldM f m s'.
Proof.
  induction l as [|x t IH]; simpl; intros; auto.
  destruct (f s x); simpl; auto.
Qed.
