(** Reasoning about the state-and-exception monad and random draws. *)
From Verif Require Import Base ProofBase.

Lemma wbind_Ok : forall E A B (m : W E A) (f : A -> W E B) w b w',
    wbind m f w = (Ok b, w') <->
    exists a w1, m w = (Ok a, w1) /\ f a w1 = (Ok b, w').
Proof.
  intros. unfold wbind. destruct (m w) as [[a|e] w1]; split.
  - intros H. eauto.
  - intros (a' & w1' & H1 & H2). inversion H1; subst. auto.
  - discriminate.
  - intros (a' & w1' & H1 & H2). discriminate.
Qed.
Lemma wbind_run : forall E A B (m : W E A) (f : A -> W E B) w a w1,
    m w = (Ok a, w1) -> wbind m f w = f a w1.
Proof. intros. unfold wbind. rewrite H. auto. Qed.
Lemma wbind_raise : forall E A B (m : W E A) (f : A -> W E B) w e w1,
    m w = (Raise e, w1) -> wbind m f w = (Raise e, w1).
Proof. intros. unfold wbind. rewrite H. auto. Qed.

Lemma wassert_Ok : forall E b (w : world E) x w',
    wassert b w = (Ok x, w') <-> b = true /\ w' = w.
Proof.
  intros. unfold wassert, wlift, assertb. destruct x. destruct b; split.
  - inversion 1; auto.
  - intros [_ ->]; auto.
  - discriminate.
  - intros [? _]; discriminate.
Qed.
Lemma wassert_true : forall E b (w : world E), b = true -> wassert b w = (Ok tt, w).
Proof. intros. subst. reflexivity. Qed.
Lemma wassert_false : forall E b (w : world E),
    b = false -> wassert b w = (Raise AssertionError, w).
Proof. intros. subst. reflexivity. Qed.
Lemma assertb_Ok : forall b x, assertb b = Ok x <-> b = true.
Proof. intros [] []; simpl; split; auto; discriminate. Qed.

(** Take apart hypotheses saying that a computation succeeded. *)
Ltac winv :=
  repeat match goal with
  | H : wbind _ _ _ = (Ok _, _) |- _ =>
      apply wbind_Ok in H; destruct H as (? & ? & ? & H)
  | H : wassert _ _ = (Ok _, _) |- _ =>
      apply wassert_Ok in H; destruct H as [? ?]; subst
  | H : wret _ _ = (Ok _, _) |- _ => unfold wret in H; inversion H; clear H; subst
  | H : wraise _ _ = (Ok _, _) |- _ => unfold wraise in H; discriminate
  | H : wlift _ _ = (Ok _, _) |- _ => unfold wlift in H; inversion H; clear H; subst
  | H : get_state _ = (Ok _, _) |- _ => unfold get_state in H; inversion H; clear H; subst
  | H : set_state _ _ = (Ok _, _) |- _ => unfold set_state in H; inversion H; clear H; subst
  | H : seed _ _ = (Ok _, _) |- _ => unfold seed in H; destruct (good_seed _) eqn:?; [|discriminate]; unfold set_state in H; inversion H; clear H; subst
  | H : warn _ _ = (Ok _, _) |- _ => unfold warn in H; inversion H; clear H; subst
  end.

Lemma good_seed_iff : forall z, good_seed z = true <-> 0 <= z < 4294967296.
Proof. intros. unfold good_seed. rewrite andb_true_iff, Z.leb_le, Z.ltb_lt. tauto. Qed.
Lemma seed_run : forall E z (w : world E), 0 <= z < 4294967296 -> seed z w = (Ok tt, mkW (r_seed E z) (w_warn w)).
Proof. intros E z w H. unfold seed. rewrite (proj2 (good_seed_iff z) H). auto. Qed.
Lemma seed_bad : forall E z (w : world E), ~ 0 <= z < 4294967296 -> seed z w = (Raise ValueError, w).
Proof.
  intros E z w H. unfold seed. destruct (good_seed z) eqn:He; auto. apply good_seed_iff in He. contradiction.
Qed.

(** ** Draws *)
Lemma choice_ok : forall E A (l : list A) (w : world E), l <> [] ->
    exists x w', choice l w = (Ok x, w') /\ In x l /\ w_warn w' = w_warn w.
Proof.
  intros E A l w Hne. destruct l as [|a t]; [congruence|].
  unfold choice, wbind, below.
  destruct (r_below E (length (a :: t)) (w_rng w)) as [k s] eqn:Hb.
  assert (Hk : (k < length (a :: t))%nat).
  { pose proof (r_below_ok E (length (a :: t)) (w_rng w) ltac:(simpl; lia)) as H.
    rewrite Hb in H. auto. }
  exists (nth k (a :: t) a), (mkW s (w_warn w)). repeat split.
  apply nth_In; auto.
Qed.
Lemma choice_in : forall E A (l : list A) (w : world E) x w',
    choice l w = (Ok x, w') -> In x l.
Proof.
  intros. destruct l as [|a t]; [discriminate|].
  destruct (choice_ok E A (a :: t) w) as (y & w1 & H1 & H2 & _); [congruence|].
  rewrite H in H1. inversion H1; subst; auto.
Qed.
Lemma choice_nil : forall E A (w : world E), choice (@nil A) w = (Raise ValueError, w).
Proof. reflexivity. Qed.
Lemma choice_raise : forall E A (l : list A) (w : world E) e w',
    choice l w = (Raise e, w') -> e = ValueError /\ l = [].
Proof.
  intros. destruct l as [|a t]; [inversion H; auto|].
  destruct (choice_ok E A (a :: t) w) as (y & w1 & H1 & _); [congruence|]. congruence.
Qed.

Lemma choice_n_ok : forall E A (l : list A) k (w : world E), l <> [] ->
    exists xs w', choice_n l k w = (Ok xs, w') /\ length xs = k /\
                  (forall x, In x xs -> In x l) /\ w_warn w' = w_warn w.
Proof.
  induction k as [|k IH]; intros w Hne; simpl.
  - exists [], w. repeat split; auto. simpl; tauto.
  - destruct (choice_ok E A l w Hne) as (x & w1 & H1 & H2 & H3).
    destruct (IH w1 Hne) as (xs & w2 & H4 & H5 & H6 & H7).
    exists (x :: xs), w2. unfold wbind. rewrite H1, H4. repeat split; simpl; auto.
    + intros y [<-|Hy]; auto.
    + congruence.
Qed.

Lemma shuffle_fuel_ok : forall E A n (l : list A) (w : world E), length l = n ->
    exists r w', shuffle_fuel n l w = (Ok r, w') /\ Permutation r l /\
                 w_warn w' = w_warn w.
Proof.
  induction n as [|n IH]; intros l w Hl.
  - destruct l; [|discriminate]. exists [], w. auto.
  - destruct l as [|a t]; [discriminate|]. cbn [shuffle_fuel].
    unfold wbind at 1, below.
    destruct (r_below E (length (a :: t)) (w_rng w)) as [k s] eqn:Hb.
    assert (Hk : (k < length (a :: t))%nat).
    { pose proof (r_below_ok E (length (a :: t)) (w_rng w) ltac:(simpl; lia)) as H.
      rewrite Hb in H. auto. }
    destruct (IH (delete k (a :: t)) (mkW s (w_warn w))) as (r & w' & H1 & H2 & H3).
    { rewrite delete_length; auto. }
    exists (nth k (a :: t) a :: r), w'. unfold wbind. rewrite H1. repeat split; auto.
    rewrite H2. symmetry. apply (delete_perm A a (a :: t) k Hk).
Qed.
Lemma shuffle_ok : forall E A (l : list A) (w : world E),
    exists r w', shuffle l w = (Ok r, w') /\ Permutation r l /\ w_warn w' = w_warn w.
Proof. intros. apply shuffle_fuel_ok. auto. Qed.

(** ** Independence of the random state

    [det m]: the result and the warnings of [m] do not depend on the random
    state, and a successful run leaves the state as it was; after an exception
    the state is as it was, or does not depend on the earlier one. *)
Definition det {E A} (m : W E A) : Prop :=
  exists r ds (u : rst E -> rst E),
    (forall w, m w = (r, mkW (u (w_rng w)) (ds ++ w_warn w))) /\
    ((forall s, u s = s) \/ exists e s0, r = Raise e /\ forall s, u s = s0).

(** [uniform m]: [m] may draw random numbers but ignores earlier warnings. *)
Definition uniform {E A} (m : W E A) : Prop :=
  forall s, exists r s' ds, forall ws, m (mkW s ws) = (r, mkW s' (ds ++ ws)).

Lemma world_eta : forall E (w : world E), mkW (w_rng w) (w_warn w) = w.
Proof. intros E []; auto. Qed.

Lemma uniform_ret : forall E A (a : A), uniform (E := E) (wret a).
Proof. intros E A a s. exists (Ok a), s, []. auto. Qed.
Lemma uniform_raise : forall E A e, uniform (E := E) (A := A) (wraise e).
Proof. intros E A e s. exists (Raise e), s, []. auto. Qed.
Lemma uniform_lift : forall E A (r : res A), uniform (E := E) (wlift r).
Proof. intros E A r s. exists r, s, []. auto. Qed.
Lemma uniform_assert : forall E b, uniform (E := E) (wassert b).
Proof. intros. apply uniform_lift. Qed.
Lemma uniform_warn : forall E x, uniform (E := E) (warn x).
Proof. intros E x s. exists (Ok tt), s, [x]. auto. Qed.
Lemma uniform_get : forall E, uniform (E := E) get_state.
Proof. intros E s. exists (Ok s), s, []. auto. Qed.
Lemma uniform_set : forall E s', uniform (E := E) (set_state s').
Proof. intros E s' s. exists (Ok tt), s', []. auto. Qed.
Lemma uniform_seed : forall E z, uniform (E := E) (seed z).
Proof. intros. unfold seed. destruct (good_seed z); [apply uniform_set|apply uniform_lift]. Qed.
Lemma uniform_below : forall E n, uniform (E := E) (below n).
Proof.
  intros E n s. exists (Ok (fst (r_below E n s))), (snd (r_below E n s)), [].
  intros ws. unfold below. simpl. destruct (r_below E n s); auto.
Qed.
Lemma uniform_bind : forall E A B (m : W E A) (f : A -> W E B),
    uniform m -> (forall a, uniform (f a)) -> uniform (wbind m f).
Proof.
  intros E A B m f Hm Hf s. destruct (Hm s) as (r & s1 & ds & H).
  destruct r as [a|e].
  - destruct (Hf a s1) as (r' & s2 & ds' & H'). exists r', s2, (ds' ++ ds).
    intros ws. unfold wbind. rewrite H, H'. rewrite app_assoc. auto.
  - exists (Raise e), s1, ds. intros ws. unfold wbind. rewrite H. auto.
Qed.
Lemma uniform_foldM : forall E A S (f : S -> A -> W E S) l s,
    (forall x y, uniform (f x y)) -> uniform (wfoldM f l s).
Proof.
  induction l as [|x t IH]; intros s H; simpl.
  - apply uniform_ret.
  - apply uniform_bind; auto.
Qed.
Lemma uniform_mapM : forall E A B (f : A -> W E B) l,
    (forall x, uniform (f x)) -> uniform (wmapM f l).
Proof.
  induction l as [|x t IH]; intros H; simpl.
  - apply uniform_ret.
  - apply uniform_bind; auto. intros. apply uniform_bind; auto. intros. apply uniform_ret.
Qed.
Lemma uniform_choice : forall E A (l : list A), uniform (E := E) (choice l).
Proof.
  intros. destruct l; simpl; [apply uniform_raise|].
  apply uniform_bind; [apply uniform_below|intros; apply uniform_ret].
Qed.
Lemma uniform_choice_n : forall E A (l : list A) k, uniform (E := E) (choice_n l k).
Proof.
  induction k; simpl; [apply uniform_ret|].
  apply uniform_bind; [apply uniform_choice|intros].
  apply uniform_bind; [auto|intros; apply uniform_ret].
Qed.
Lemma uniform_shuffle : forall E A (l : list A), uniform (E := E) (shuffle l).
Proof.
  intros. unfold shuffle. generalize (length l). intros n. revert l.
  induction n; intros l; simpl; [apply uniform_ret|].
  destruct l; [apply uniform_ret|].
  apply uniform_bind; [apply uniform_below|intros].
  apply uniform_bind; [auto|intros; apply uniform_ret].
Qed.
Lemma uniform_if : forall E A (b : bool) (m m' : W E A),
    uniform m -> uniform m' -> uniform (if b then m else m').
Proof. intros; destruct b; auto. Qed.

Lemma det_ret : forall E A (a : A), det (E := E) (wret a).
Proof.
  intros. exists (Ok a), [], (fun s => s). split; auto.
  intros w. simpl. rewrite world_eta; auto.
Qed.
Lemma det_lift : forall E A (r : res A), det (E := E) (wlift r).
Proof.
  intros. exists r, [], (fun s => s). split; auto.
  intros w. simpl. rewrite world_eta; auto.
Qed.
Lemma det_raise : forall E A e, det (E := E) (A := A) (wraise e).
Proof. intros. apply (det_lift E A (Raise e)). Qed.
Lemma det_assert : forall E b, det (E := E) (wassert b).
Proof. intros. apply det_lift. Qed.
Lemma det_warn : forall E x, det (E := E) (warn x).
Proof. intros. exists (Ok tt), [x], (fun s => s). split; auto. Qed.
Lemma det_bind : forall E A B (m : W E A) (f : A -> W E B),
    det m -> (forall a, det (f a)) -> det (wbind m f).
Proof.
  intros E A B m f (r & ds & u & H1 & H2) Hf.
  destruct r as [a|e].
  - destruct (Hf a) as (r' & ds' & u' & H3 & H4).
    exists r', (ds' ++ ds), u'. split; auto.
    intros w. unfold wbind. rewrite H1, H3. simpl.
    destruct H2 as [H2|(e & s0 & H2 & _)]; [|discriminate]. rewrite H2, app_assoc. auto.
  - exists (Raise e), ds, u. split.
    + intros w. unfold wbind. rewrite H1. auto.
    + destruct H2 as [H2|(e' & s0 & _ & H2)]; eauto.
Qed.
Lemma det_foldM : forall E A S (f : S -> A -> W E S) l s,
    (forall x y, det (f x y)) -> det (wfoldM f l s).
Proof.
  induction l as [|x t IH]; intros s H; simpl.
  - apply det_ret.
  - apply det_bind; auto.
Qed.
Lemma det_mapM : forall E A B (f : A -> W E B) l,
    (forall x, det (f x)) -> det (wmapM f l).
Proof.
  induction l as [|x t IH]; intros H; simpl.
  - apply det_ret.
  - apply det_bind; auto. intros. apply det_bind; auto. intros. apply det_ret.
Qed.
Lemma det_if : forall E A (b : bool) (m m' : W E A),
    det m -> det m' -> det (if b then m else m').
Proof. intros; destruct b; auto. Qed.

(** save state; seed; body; restore; continue *)
Lemma det_bracket : forall E A B z (body : W E A) (k : A -> W E B),
    uniform body -> (forall a, det (k a)) ->
    det (wbind get_state (fun st => wbind (seed z) (fun _ =>
         wbind body (fun a => wbind (set_state st) (fun _ => k a))))).
Proof.
  intros E A B z body k Hb Hk. unfold seed. destruct (good_seed z).
  2:{ exists (Raise ValueError), [], (fun s => s). split; [|left; auto]. intros [s ws]. reflexivity. }
  destruct (Hb (r_seed E z)) as (r & s' & ds & H).
  destruct r as [a|e].
  - destruct (Hk a) as (r' & ds' & u & H1 & H2).
    exists r', (ds' ++ ds), u. split; auto.
    intros w. unfold wbind, get_state, set_state. simpl. rewrite H. simpl.
    rewrite H1. simpl. rewrite app_assoc. auto.
  - exists (Raise e), ds, (fun _ => s'). split; [|right; eauto].
    intros w. unfold wbind, get_state, set_state. simpl. rewrite H. auto.
Qed.

(** What [det] means. *)
Lemma det_spec : forall E A (m : W E A), det m ->
    (forall w1 w2, fst (m w1) = fst (m w2)) /\
    (forall w a w', m w = (Ok a, w') -> w_rng w' = w_rng w).
Proof.
  intros E A m (r & ds & u & H1 & H2). split.
  - intros. rewrite !H1. auto.
  - intros w a w' H. rewrite H1 in H. inversion H; subst. simpl.
    destruct H2 as [H2|(e & s0 & H2 & _)]; [auto|discriminate].
Qed.
Lemma det_error : forall E A (m : W E A), det m -> forall w e w', m w = (Raise e, w') ->
    w_rng w' = w_rng w \/ forall w2, exists w2', m w2 = (Raise e, w2') /\ w_rng w2' = w_rng w'.
Proof.
  intros E A m (r & ds & u & H1 & H2) w e w' H. rewrite H1 in H. inversion H; subst.
  destruct H2 as [H2|(e' & s0 & _ & H2)]; [left; apply H2|]. right. intros w2. rewrite H1.
  eexists. split; [reflexivity|]. cbn [w_rng]. rewrite !H2. auto.
Qed.
