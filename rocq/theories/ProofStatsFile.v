(** Reading what write_stats_file wrote. *)
From Coq Require Import List String Ascii Bool ZArith Lia Decimal DecimalString.
From Verif Require Import Base ProofBase ModelNames ProofNames ModelStatsFile.
Import ListNotations.
Local Open Scope list_scope.
Local Open Scope nat_scope.

Definition with_nl (l : text) : text := l ++ [newline].
Definition a_word (l : text) : Prop := l <> [] /\ forall c, In c l -> is_ws c = false.

(** ** Splitting *)
Lemma split_go_word : forall tok cur rest, (forall c, In c tok -> is_ws c = false) ->
    split_go cur (tok ++ rest) = split_go (rev tok ++ cur) rest.
Proof.
  induction tok as [|c t IH]; intros cur rest H; auto. cbn [app split_go].
  rewrite (H c (or_introl eq_refl)), IH by (intros; apply H; right; auto).
  cbn [rev]. rewrite <- app_assoc. auto.
Qed.
Lemma split_word : forall tok c rest, a_word tok -> is_ws c = true ->
    split_ws (tok ++ c :: rest) = tok :: split_ws rest.
Proof.
  intros tok c rest [H1 H2] Hc. unfold split_ws. rewrite split_go_word, app_nil_r by auto. cbn [split_go]. rewrite Hc.
  destruct (rev tok) as [|x t] eqn:E.
  - apply (f_equal (@rev ascii)) in E. rewrite rev_involutive in E. cbn in E. congruence.
  - rewrite <- E, rev_involutive. auto.
Qed.
Lemma split_end : forall tok, a_word tok -> split_ws tok = [tok].
Proof.
  intros tok [H1 H2]. unfold split_ws. rewrite <- (app_nil_r tok) at 1. rewrite split_go_word, app_nil_r by auto. cbn [split_go].
  destruct (rev tok) as [|x t] eqn:E.
  - apply (f_equal (@rev ascii)) in E. rewrite rev_involutive in E. cbn in E. congruence.
  - rewrite <- E, rev_involutive. auto.
Qed.
Lemma split_space : forall c rest, is_ws c = true -> split_ws (c :: rest) = split_ws rest.
Proof. intros c rest H. unfold split_ws. cbn [split_go]. rewrite H. auto. Qed.
Lemma split_spaces : forall k rest, split_ws (repeat " "%char k ++ rest) = split_ws rest.
Proof. induction k as [|k IH]; intros rest; auto. cbn [repeat app]. rewrite split_space by auto. auto. Qed.
Lemma split_join : forall xs c rest, (forall x, In x xs -> a_word x) -> is_ws c = true ->
    split_ws (join_sp xs ++ c :: rest) = xs ++ split_ws rest.
Proof.
  induction xs as [|x t IH]; intros c rest H Hc; [apply split_space; auto|].
  destruct t as [|y u].
  - cbn [join_sp app]. apply split_word; auto. apply H. left; auto.
  - change (join_sp (x :: y :: u)) with (x ++ " "%char :: join_sp (y :: u)).
    rewrite <- app_assoc. cbn [app]. rewrite split_word; auto.
    + f_equal. apply IH; auto. intros z Hz. apply H. right; auto.
    + apply H. left; auto.
Qed.

(** ** Printed numbers are words *)
Lemma number_not_ws : forall c, number_char c = true -> is_ws c = false /\ c <> newline /\ c <> "("%char /\ c <> "="%char.
Proof.
  intros c H. unfold number_char in H. apply existsb_exists in H as (d & Hd & He). apply Ascii.eqb_eq in He. subst d.
  cbn in Hd. repeat (destruct Hd as [<-|Hd]; [repeat split; discriminate|]). destruct Hd.
Qed.
Lemma show_word : forall F (x : num F), a_word (show x).
Proof. intros F x. split; [apply show_ne|]. intros c Hc. apply number_not_ws. eapply show_chars; eauto. Qed.
Lemma int_chars : forall z c, In c (show_int z) -> number_char c = true.
Proof.
  intros z c H. apply str_int_chars in H as [H| ->]; [|reflexivity].
  unfold digit in H. apply existsb_exists in H as (d & Hd & He). apply Ascii.eqb_eq in He. subst d.
  cbn in Hd. repeat (destruct Hd as [<-|Hd]; [reflexivity|]). destruct Hd.
Qed.
Lemma int_ne : forall z, show_int z <> [].
Proof.
  intros z. unfold show_int, str_int. destruct (Z.to_int z); cbn [NilZero.string_of_int]; [apply uint0_nonempty|discriminate].
Qed.
Lemma int_word : forall z, a_word (show_int z).
Proof. intros z. split; [apply int_ne|]. intros c Hc. apply number_not_ws. eapply int_chars; eauto. Qed.
Lemma read_show_int : forall z, read_int (show_int z) = Some z.
Proof.
  intros z. unfold read_int, show_int, la. rewrite string_of_list_ascii_of_string. unfold str_int.
  assert (Hn : Z.to_int z <> Pos Nil /\ Z.to_int z <> Neg Nil).
  { destruct z as [|p|p]; cbn; split; try discriminate; intros He; injection He as He;
      apply (DecimalPos.Unsigned.to_uint_nonnil p); auto. }
  rewrite NilZero.isi by apply Hn. cbn. rewrite DecimalZ.of_to. auto.
Qed.

(** ** Lines *)
Lemma readlines_go_line : forall l cur rest, ~ In newline l ->
    readlines_go cur (l ++ newline :: rest) = (rev cur ++ l ++ [newline]) :: readlines_go [] rest.
Proof.
  induction l as [|c t IH]; intros cur rest H.
  - cbn [app readlines_go]. rewrite Ascii.eqb_refl. cbn [rev]. auto.
  - cbn [app readlines_go]. destruct (Ascii.eqb_spec c newline) as [->|Hc]; [exfalso; apply H; left; auto|].
    rewrite IH by (intros Hn; apply H; right; auto). cbn [rev]. rewrite <- app_assoc. auto.
Qed.
Lemma readlines_lines : forall ls, (forall l, In l ls -> ~ In newline l) ->
    readlines (flat_map (fun l => l ++ [newline]) ls) = map with_nl ls.
Proof.
  induction ls as [|l t IH]; intros H; auto. cbn [flat_map map]. rewrite <- app_assoc. cbn [app].
  unfold readlines. rewrite readlines_go_line by (apply H; left; auto). cbn [rev app]. f_equal.
  apply IH. intros; apply H; right; auto.
Qed.

Lemma not_in_app : forall A (c : A) a b, ~ In c a -> ~ In c b -> ~ In c (a ++ b).
Proof. intros A c a b H1 H2 H. apply in_app_or in H as [H|H]; auto. Qed.
Lemma nl_lit : forall s, existsb (Ascii.eqb newline) (la s) = false -> ~ In newline (la s).
Proof.
  intros s H Hin. assert (existsb (Ascii.eqb newline) (la s) = true); [|congruence].
  apply existsb_exists. exists newline. split; auto.
Qed.
Lemma nl_show : forall F (x : num F), ~ In newline (show x).
Proof. intros F x H. apply show_chars in H. discriminate. Qed.
Lemma nl_int : forall z, ~ In newline (show_int z).
Proof. intros z H. apply int_chars in H. discriminate. Qed.
Lemma nl_repeat : forall k, ~ In newline (repeat " "%char k).
Proof. intros k H. apply repeat_spec in H. discriminate. Qed.
Lemma nl_join : forall xs, (forall x, In x xs -> ~ In newline x) -> ~ In newline (join_sp xs).
Proof.
  induction xs as [|x t IH]; intros H; [intros []|]. destruct t as [|y u]; [apply H; left; auto|].
  change (join_sp (x :: y :: u)) with (x ++ " "%char :: join_sp (y :: u)).
  apply not_in_app; [apply H; left; auto|]. intros [Hn|Hn]; [discriminate|]. revert Hn. apply IH. intros; apply H; right; auto.
Qed.
Lemma nl_counts : forall v, ~ In newline (show_counts v).
Proof.
  intros [z|l|l|]; cbn [show_counts].
  - apply nl_int.
  - apply nl_join. intros x Hx. apply in_map_iff in Hx as (y & <- & _). apply nl_int.
  - apply nl_join. intros x Hx. apply in_map_iff in Hx as (y & <- & _). apply nl_int.
  - apply nl_lit. reflexivity.
Qed.
Lemma nl_averages : forall F (v : averages F), ~ In newline (show_averages v).
Proof.
  intros F [z|l|l]; cbn [show_averages].
  - apply nl_show.
  - apply nl_join. intros x Hx. apply in_map_iff in Hx as (y & <- & _). apply nl_show.
  - apply nl_join. intros x Hx. apply in_map_iff in Hx as (y & <- & _). apply nl_show.
Qed.
#[export] Hint Resolve not_in_app nl_show nl_int nl_repeat nl_counts nl_averages : nl.
Ltac nl := repeat (apply not_in_app); auto with nl; try (apply nl_lit; reflexivity).

Lemma stats_lines_nl : forall F (o : stats F) l, In l (stats_lines o) -> ~ In newline l.
Proof.
  intros F o l H. unfold stats_lines in H. repeat (apply in_app_or in H as [H|H]).
  - cbn [head_lines map In] in H. repeat (destruct H as [<-|H]; [apply nl_lit; reflexivity|]). destruct H.
  - cbn [In] in H. destruct H as [<-|H]; [nl|]. repeat (destruct H as [<-|H]; [first [solve [intros []] | nl]|]). destruct H.
  - apply in_map_iff in H as ((i & lz & le) & <- & _). unfold cluster_line, rjust. nl.
  - cbn [In] in H. repeat (destruct H as [<-|H]; [first [solve [intros []] | nl]|]). destruct H.
  - apply in_map_iff in H as ((i & m & e) & <- & _). unfold param_line, ljust. nl.
  - destruct H as [<-|[]]. apply nl_lit. reflexivity.
Qed.

(** ** Single lines *)
Lemma go_word : forall tok c rest, a_word tok -> is_ws c = true ->
    split_go [] (tok ++ c :: rest) = tok :: split_go [] rest.
Proof. exact split_word. Qed.
Lemma go_join : forall xs c rest, (forall x, In x xs -> a_word x) -> is_ws c = true ->
    split_go [] (join_sp xs ++ c :: rest) = xs ++ split_go [] rest.
Proof. exact split_join. Qed.
Ltac words := unfold split_ws, with_nl; rewrite <- ?app_assoc; simpl;
  repeat (first [rewrite go_word by auto | rewrite go_join by auto]; simpl); auto.

Lemma logZ_line : forall F (x e : num F),
    split_ws (with_nl (la "log(Z)       =  " ++ show x ++ la " +/-   " ++ show e)) =
    [la "log(Z)"; la "="; show x; la "+/-"; show e].
Proof.
  intros F x e. pose proof (show_word F x) as H1. pose proof (show_word F e) as H2.
  generalize dependent (show x). generalize dependent (show e). intros u Hu v Hv. words.
Qed.
Lemma tail_line : forall F (x e : num F),
    split_ws (la "  " ++ show x ++ la " +/-   " ++ show e) = [show x; la "+/-"; show e].
Proof.
  intros F x e. pose proof (show_word F x) as H1. pose proof (show_word F e) as H2.
  generalize dependent (show x). generalize dependent (show e). intros u Hu v Hv. words.
  do 2 f_equal. exact (split_end u Hu).
Qed.
Lemma int_lines : forall z,
    split_ws (with_nl (la " nposterior:        " ++ show_int z)) = [la "nposterior:"; show_int z] /\
    split_ws (with_nl (la " nequals:           " ++ show_int z)) = [la "nequals:"; show_int z] /\
    split_ws (with_nl (la " ndead:          " ++ show_int z)) = [la "ndead:"; show_int z] /\
    split_ws (with_nl (la " nlive:             " ++ show_int z)) = [la "nlive:"; show_int z].
Proof.
  intros z. pose proof (int_word z) as H. generalize dependent (show_int z). intros u Hu.
  repeat split; words.
Qed.

Definition count_words (v : counts) : list text :=
  match v with CNum z => [show_int z] | CList l | CTuple l => map show_int l | CNan => [la "nan"] end.
Definition average_words {F} (v : averages F) : list text :=
  match v with ANum x => [show x] | AList l | ATuple l => map show l end.
Lemma counts_join : forall v, show_counts v = join_sp (count_words v) /\ forall x, In x (count_words v) -> a_word x.
Proof.
  intros [z|l|l|]; (split; [reflexivity|]); cbn [count_words]; intros x Hx;
    try (apply in_map_iff in Hx as (y & <- & _)); try apply int_word.
  - destruct Hx as [<-|[]]. apply int_word.
  - destruct Hx as [<-|[]]. split; [discriminate|]. cbn. intuition (subst; auto).
Qed.
Lemma averages_join : forall F (v : averages F), show_averages v = join_sp (average_words v) /\
    forall x, In x (average_words v) -> exists y : num F, x = show y.
Proof.
  intros F [z|l|l]; (split; [reflexivity|]); cbn [average_words]; intros x Hx;
    try (apply in_map_iff in Hx as (y & <- & _)); eauto.
  destruct Hx as [<-|[]]. eauto.
Qed.
Lemma nlike_line : forall v, split_ws (with_nl (la " nlike:         " ++ show_counts v)) = la "nlike:" :: count_words v.
Proof.
  intros v. destruct (counts_join v) as [H1 H2]. rewrite H1. generalize dependent (count_words v). intros l _ Hl.
  words. rewrite app_nil_r. auto.
Qed.
Lemma avnlike_line : forall F (v u : averages F),
    split_ws (with_nl (la " <nlike>:       " ++ show_averages v ++ la "   (    " ++ show_averages u ++ la " per slice )")) =
    la "<nlike>:" :: average_words v ++ la "(" :: average_words u ++ [la "per"; la "slice"; la ")"].
Proof.
  intros F v u. destruct (averages_join F v) as [H1 H2]. destruct (averages_join F u) as [H3 H4]. rewrite H1, H3.
  assert (H5 : forall x, In x (average_words v) -> a_word x) by (intros x Hx; destruct (H2 x Hx) as [y ->]; apply show_word).
  assert (H6 : forall x, In x (average_words u) -> a_word x) by (intros x Hx; destruct (H4 x Hx) as [y ->]; apply show_word).
  generalize dependent (average_words v). generalize dependent (average_words u). intros a _ _ H6 b _ _ H5.
  words.
Qed.

(** ** Lines of clusters *)
Lemma after_equals_skip : forall a b, ~ In "="%char a -> after_equals (a ++ b) = after_equals b.
Proof.
  induction a as [|c t IH]; intros b H; auto. cbn [app after_equals].
  destruct (Ascii.eqb_spec c "="%char) as [->|Hc]; [exfalso; apply H; left; auto|].
  apply IH. intros Hn. apply H. right; auto.
Qed.
Lemma until_newline_end : forall a, ~ In newline a -> until_newline (a ++ [newline]) = a.
Proof.
  induction a as [|c t IH]; intros H; auto. cbn [app until_newline].
  destruct (Ascii.eqb_spec c newline) as [->|Hc]; [exfalso; apply H; left; auto|].
  f_equal. apply IH. intros Hn. apply H. right; auto.
Qed.
Lemma cluster_tail : forall F i (x e : num F),
    after_equals (with_nl (cluster_line i x e)) = Some (la "  " ++ show x ++ la " +/-   " ++ show e).
Proof.
  intros F i x e.
  assert (H : with_nl (cluster_line i x e) =
     (la "log(Z_ " ++ rjust 2 (show_int (Z.of_nat (i + 1))) ++ la ")  ") ++
          "="%char :: ((la "  " ++ show x ++ la " +/-   " ++ show e) ++ [newline])).
  { unfold with_nl, cluster_line. rewrite <- !app_assoc. reflexivity. }
  rewrite H, after_equals_skip.
  - transitivity (Some (until_newline ((la "  " ++ show x ++ la " +/-   " ++ show e) ++ [newline]))); [reflexivity|].
    f_equal. apply until_newline_end. nl.
  - assert (Hl : forall s, existsb (Ascii.eqb "="%char) (la s) = false -> ~ In "="%char (la s)).
    { intros s Hs Hin. assert (existsb (Ascii.eqb "="%char) (la s) = true); [|congruence].
      apply existsb_exists. exists "="%char. split; auto. }
    unfold rjust. repeat (apply not_in_app); try (apply Hl; reflexivity).
    + intros Hn. apply repeat_spec in Hn. discriminate.
    + intros Hn. apply int_chars in Hn. discriminate.
Qed.
Lemma cluster_start : forall F i (x e : num F), text_eqb (firstn 5 (with_nl (cluster_line i x e))) (la "log(Z") = true.
Proof. intros. unfold with_nl, cluster_line. cbn. reflexivity. Qed.

Lemma read_clusters_ok : forall F (ps : list (num F * num F)) k rest,
    (match rest with [] => True | l :: _ => text_eqb (firstn 5 l) (la "log(Z") = false end) ->
    read_clusters (map with_nl (map (fun '(i, (lz, le)) => cluster_line i lz le) (combine (seq k (length ps)) ps)) ++ rest) =
    Ok (map fst ps, map snd ps).
Proof.
  intros F ps. induction ps as [|[z e] t IH]; intros k rest Hr.
  - cbn [length seq combine map app]. destruct rest as [|l u]; auto. cbn [read_clusters]. rewrite Hr. auto.
  - cbn [length seq combine map app read_clusters fst snd]. rewrite cluster_start. cbn [negb].
    rewrite cluster_tail. cbn [rbind]. unfold word. rewrite tail_line. cbn [get nth_error rbind value].
    rewrite !read_show. cbn [rbind value]. rewrite IH by auto. auto.
Qed.

(** ** Lines of parameters *)
Lemma no_dashes_app : forall a c b, no_dashes a -> no_dashes (c :: b) -> c <> "-"%char -> no_dashes (a ++ c :: b).
Proof.
  induction a as [|x t IH]; intros c b Ha Hb Hc; auto. cbn [app]. destruct Ha as [H1 H2]. split; [|apply IH; auto].
  destruct t as [|y u]; cbn [app]; auto. intros [_ ?]. auto.
Qed.
Lemma no_dashes_none : forall a, ~ In "-"%char a -> no_dashes a.
Proof.
  induction a as [|x t IH]; intros H; cbn; auto. split; [|apply IH; intros Hn; apply H; right; auto].
  destruct t; auto. intros [-> _]. apply H. left; auto.
Qed.
Lemma no_dashes_contains : forall l, no_dashes l -> contains (la "------------------") l = false.
Proof.
  induction l as [|c t IH]; intros H; [reflexivity|]. destruct H as [H1 H2]. cbn [contains]. rewrite (IH H2), orb_false_r.
  destruct t as [|d u].
  - cbn [la list_ascii_of_string starts_with]. apply andb_false_r.
  - cbn [la list_ascii_of_string starts_with]. destruct (Ascii.eqb_spec "-"%char c); auto.
    destruct (Ascii.eqb_spec "-"%char d); auto. exfalso. apply H1. auto.
Qed.
Lemma spaces_shift : forall k (r : text), repeat " "%char k ++ " "%char :: r = " "%char :: repeat " "%char k ++ r.
Proof. induction k as [|k IH]; intros r; auto. cbn [repeat app]. rewrite IH. auto. Qed.

Lemma param_words : forall F i (m e : num F),
    split_ws (with_nl (param_line i m e)) = [show_int (Z.of_nat (i + 1)); show m; la "+/-"; show e].
Proof.
  intros F i m e. unfold with_nl, param_line, ljust.
  generalize (3 - length (show_int (Z.of_nat (i + 1)))). intros k.
  pose proof (show_word F m) as H1. pose proof (show_word F e) as H2. pose proof (int_word (Z.of_nat (i + 1))) as H3.
  generalize dependent (show m). generalize dependent (show e). generalize dependent (show_int (Z.of_nat (i + 1))).
  intros u Hu v Hv w Hw. unfold split_ws. rewrite <- !app_assoc.
  change (la "  " ++ w ++ la " +/-   " ++ v ++ [newline]) with (" "%char :: " "%char :: w ++ la " +/-   " ++ v ++ [newline]).
  rewrite spaces_shift, go_word by auto. f_equal.
  pose proof (split_spaces k) as Hsp. unfold split_ws in Hsp. rewrite Hsp. words.
Qed.
Lemma param_no_dashes : forall F i (m e : num F), contains (la "------------------") (with_nl (param_line i m e)) = false.
Proof.
  intros F i m e. apply no_dashes_contains. unfold with_nl, param_line, ljust. rewrite <- !app_assoc.
  change (la "  " ++ show m ++ la " +/-   " ++ show e ++ [newline]) with
    (" "%char :: " "%char :: show m ++ " "%char :: "+"%char :: "/"%char :: "-"%char :: " "%char :: " "%char :: " "%char :: show e ++ [newline]).
  rewrite spaces_shift. apply no_dashes_app; [| |discriminate].
  { apply no_dashes_none. intros Hn. destruct (str_int_digits (Z.of_nat (i + 1))) as [D _]; [lia|].
    apply D in Hn. discriminate. }
  assert (Hcons : forall c l, c <> "-"%char -> no_dashes l -> no_dashes (c :: l)).
  { intros c l Hc Hl. split; auto. destruct l; auto. intros [? _]. auto. }
  apply Hcons; [discriminate|].
  assert (Hrest : no_dashes (" "%char :: show m ++ " "%char :: "+"%char :: "/"%char :: "-"%char :: " "%char :: " "%char :: " "%char :: show e ++ [newline])).
  { apply Hcons; [discriminate|]. apply no_dashes_app; [apply show_dash| |discriminate].
    do 3 (apply Hcons; [discriminate|]). split; [intros [_ ?]; discriminate|].
    do 3 (apply Hcons; [discriminate|]). apply no_dashes_app; [apply show_dash|cbn; auto|discriminate]. }
  induction (3 - length (show_int (Z.of_nat (i + 1)))) as [|k IH]; auto.
  cbn [repeat app]. apply Hcons; [discriminate|auto].
Qed.
Lemma read_params_ok : forall F (ps : list (num F * num F)) k,
    read_params (map with_nl (map (fun '(i, (m, e)) => param_line i m e) (combine (seq k (length ps)) ps)) ++
                 [with_nl (la "-------------------------------")]) = Ok (map fst ps, map snd ps).
Proof.
  intros F ps. induction ps as [|[z e] t IH]; intros k.
  - reflexivity.
  - cbn [length seq combine map app read_params fst snd]. rewrite param_no_dashes.
    unfold word. rewrite param_words. cbn [get nth_error rbind value]. rewrite !read_show. cbn [rbind value].
    rewrite IH. auto.
Qed.
