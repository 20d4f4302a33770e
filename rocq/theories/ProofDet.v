(** Independence of the random state (C08). *)
From Verif Require Import Base ModelRun ModelData ProofBase ProofMonad.

Ltac unif :=
  repeat first
    [ apply uniform_bind; intros
    | apply uniform_ret | apply uniform_raise | apply uniform_lift | apply uniform_assert
    | apply uniform_warn | apply uniform_get | apply uniform_set | apply uniform_seed
    | apply uniform_below | apply uniform_choice | apply uniform_choice_n
    | apply uniform_shuffle | apply uniform_foldM; intros | apply uniform_mapM; intros
    | apply uniform_if ].
Ltac detm :=
  repeat first
    [ apply det_ret | apply det_raise | apply det_lift | apply det_assert | apply det_warn
    | apply det_bind; intros | apply det_foldM; intros | apply det_mapM; intros
    | apply det_if ].

Lemma uniform_slt : forall E k choices cond, uniform (E := E) (slt_loop k choices cond).
Proof.
  induction k; intros; simpl; [apply uniform_ret|].
  destruct cond; unif; auto.
Qed.
Lemma uniform_birth_step : forall E b l bi i, uniform (E := E) (birth_step b l bi i).
Proof.
  intros. unfold birth_step. destruct (nth i bi None); [apply uniform_ret|].
  assert (H : uniform (E := E)
    (let* _ := wassert (1 <? length (where_ (Z.eqb (nth i b 0%Z)) l))%nat in
     let* to_use := draw_deaths b (nth i b 0) (where_ (Z.eqb (nth i b 0)) l) in
     let* to_use := fill_deaths (length (where_ (Z.eqb (nth i b 0)) b)) to_use in
     wret (assign_at (where_ (Z.eqb (nth i b 0)) b)
             (map Some (firstn (length (where_ (Z.eqb (nth i b 0)) b)) to_use)) bi))).
  { unif; unfold draw_deaths, fill_deaths; unif. apply uniform_slt. }
  destruct (where_ (Z.eqb (nth i b 0)) l) as [|d [|d' t]]; auto. apply uniform_ret.
Qed.
Lemma uniform_birth_loop : forall E b l, uniform (E := E) (birth_loop b l).
Proof. intros. unfold birth_loop. unif. apply uniform_birth_step. Qed.

Lemma det_check_logls : forall E lg da dw, det (E := E) (check_ns_run_logls lg da dw).
Proof. intros. unfold check_ns_run_logls. detm. Qed.
Lemma det_check_ns_run : forall E r da dw, det (E := E) (check_ns_run r da dw).
Proof. intros. unfold check_ns_run. detm. Qed.

Lemma det_birth : forall E b l da dw, det (E := E) (birth_inds_given_contours b l da dw).
Proof.
  intros. unfold birth_inds_given_contours. apply det_bind; [apply det_check_logls|intros _].
  apply det_bracket; [apply uniform_birth_loop|]. intros; apply det_ret.
Qed.
Lemma det_threads : forall E b, det (E := E) (threads_given_birth_inds b).
Proof.
  intros. unfold threads_given_birth_inds.
  apply det_bind; [apply det_lift|intros st].
  apply det_bind; [|intros; detm].
  apply det_if; [apply det_ret|]. apply det_bind; [apply det_warn|intros _].
  apply det_bracket; [|intros; apply det_ret].
  apply uniform_foldM. intros. unfold assign_unlabelled. unif.
Qed.
Lemma det_process : forall E s da dw, det (E := E) (process_samples_array s da dw).
Proof.
  intros. unfold process_samples_array.
  apply det_bind; [apply det_birth|intros bi].
  apply det_bind; [apply det_threads|intros labs].
  detm. destruct a0. detm.
Qed.
Lemma det_multinest : forall E root dead live da dw,
    det (E := E) (process_multinest_run root dead live da dw).
Proof.
  intros. unfold process_multinest_run.
  destruct (map _ dead); [apply det_raise|]. destruct (map _ live); [apply det_raise|].
  apply det_bind; [apply det_assert|intros]. apply det_bind; [apply det_process|intros].
  detm.
Qed.
Lemma det_polychord : forall E root rows ps st da dw,
    det (E := E) (process_polychord_run root rows ps st da dw).
Proof.
  intros. unfold process_polychord_run.
  apply det_bind; [apply det_process|intros].
  destruct ps; [|detm]. destruct st; [detm|]. destruct (caught_stats e); detm.
Qed.

Lemma det_leaves : forall E A (m : W E A), det m ->
    (forall w a w', m w = (Ok a, w') -> w_rng w' = w_rng w) /\
    (forall w1 w2, fst (m w1) = fst (m w2)) /\
    (exists emitted, forall w, w_warn (snd (m w)) = emitted ++ w_warn w).
Proof.
  intros E A m Hd. destruct (det_spec _ _ _ Hd) as [H1 H2]. split; auto. split; auto.
  destruct Hd as (r & ds & u & H3 & _). exists ds. intros w. rewrite H3. auto.
Qed.

(** ** Draws (C09)

    [reaches s t]: the state [t] is reached from [s] by drawing numbers. *)
Inductive reaches (E : env) (s : rst E) : rst E -> Prop :=
| reaches_refl : reaches E s s
| reaches_draw : forall t n, reaches E s t -> reaches E s (snd (r_below E n t)).
Arguments reaches {E}.
Lemma reaches_trans : forall E (s t u : rst E), reaches s t -> reaches t u -> reaches s u.
Proof. intros E s t u H1 H2. induction H2; auto. constructor; auto. Qed.

Definition draws {E A} (m : W E A) : Prop := forall w, reaches (w_rng w) (w_rng (snd (m w))).
Lemma draws_ret : forall E A (a : A), draws (E := E) (wret a).
Proof. intros E A a w. constructor. Qed.
Lemma draws_raise : forall E A e, draws (E := E) (A := A) (wraise e).
Proof. intros E A a w. constructor. Qed.
Lemma draws_lift : forall E A (r : res A), draws (E := E) (wlift r).
Proof. intros E A a w. constructor. Qed.
Lemma draws_assert : forall E b, draws (E := E) (wassert b).
Proof. intros E b w. constructor. Qed.
Lemma draws_warn : forall E x, draws (E := E) (warn x).
Proof. intros E x w. constructor. Qed.
Lemma draws_below : forall E n, draws (E := E) (below n).
Proof.
  intros E n w. unfold below. pose proof (reaches_draw E (w_rng w) _ n (reaches_refl _ _)) as H.
  destruct (r_below E n (w_rng w)). auto.
Qed.
Lemma draws_bind : forall E A B (m : W E A) (f : A -> W E B),
    draws m -> (forall a, draws (f a)) -> draws (wbind m f).
Proof.
  intros E A B m f Hm Hf w. unfold wbind. specialize (Hm w). destruct (m w) as [[a|e] w']; auto.
  eapply reaches_trans; [apply Hm|apply Hf].
Qed.
Lemma draws_if : forall E A (b : bool) (m m' : W E A), draws m -> draws m' -> draws (if b then m else m').
Proof. intros; destruct b; auto. Qed.
Lemma draws_foldM : forall E A S (f : S -> A -> W E S) l s, (forall x y, draws (f x y)) -> draws (wfoldM f l s).
Proof. induction l; intros; simpl; [apply draws_ret|apply draws_bind; auto]. Qed.
Lemma draws_choice : forall E A (l : list A), draws (E := E) (choice l).
Proof.
  intros. destruct l; simpl; [apply draws_raise|].
  apply draws_bind; [apply draws_below|intros; apply draws_ret].
Qed.
Lemma draws_choice_n : forall E A (l : list A) k, draws (E := E) (choice_n l k).
Proof.
  induction k; simpl; [apply draws_ret|].
  apply draws_bind; [apply draws_choice|intros]. apply draws_bind; [auto|intros; apply draws_ret].
Qed.
Lemma draws_shuffle : forall E A (l : list A), draws (E := E) (shuffle l).
Proof.
  intros. unfold shuffle. generalize (length l). intros n. revert l.
  induction n; intros l; simpl; [apply draws_ret|]. destruct l; [apply draws_ret|].
  apply draws_bind; [apply draws_below|intros]. apply draws_bind; [auto|intros; apply draws_ret].
Qed.
Ltac drw := repeat first
    [ apply draws_bind; intros | apply draws_ret | apply draws_raise | apply draws_lift | apply draws_assert
    | apply draws_warn | apply draws_below | apply draws_choice | apply draws_choice_n
    | apply draws_shuffle | apply draws_foldM; intros | apply draws_if ].
Lemma draws_slt : forall E k choices cond, draws (E := E) (slt_loop k choices cond).
Proof. induction k; intros; simpl; [apply draws_ret|]. destruct cond; drw; auto. Qed.
Lemma draws_birth_step : forall E b l bi i, draws (E := E) (birth_step b l bi i).
Proof.
  intros. unfold birth_step. destruct (nth i bi None); [apply draws_ret|].
  assert (H : forall dd, draws (E := E)
    (let* _ := wassert (1 <? length dd)%nat in
     let* to_use := draw_deaths b (nth i b 0) dd in
     let* to_use := fill_deaths (length (where_ (Z.eqb (nth i b 0)) b)) to_use in
     wret (assign_at (where_ (Z.eqb (nth i b 0)) b)
             (map Some (firstn (length (where_ (Z.eqb (nth i b 0)) b)) to_use)) bi))).
  { intros dd. drw; unfold draw_deaths, fill_deaths; drw. apply draws_slt. }
  destruct (where_ (Z.eqb (nth i b 0)) l) as [|d [|d' t]]; auto. apply draws_ret.
Qed.
Lemma draws_birth_loop : forall E b l, draws (E := E) (birth_loop b l).
Proof. intros. unfold birth_loop. drw. apply draws_birth_step. Qed.
