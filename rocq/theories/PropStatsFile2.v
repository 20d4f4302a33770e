(** C50: the dictionary written when keys are missing, and what is read from any
    .stats file, as PolyChord writes them. *)
From Coq Require Import List String Ascii Bool ZArith Lia.
From Verif Require Import Base ProofBase ModelNames ProofNames ModelStatsFile ProofStatsFile PropStatsFile.
Import ListNotations.
Local Open Scope list_scope.
Local Open Scope nat_scope.

(** Missing keys have the defaults. *)
Theorem C50_defaults : forall F (d : stats_in F) s o s', write_stats_file d s = Ok (o, s') ->
    (in_logZ d = None -> st_logZ o = zero) /\ (in_logZerr d = None -> st_logZerr o = zero) /\
    (in_logZs d = None -> st_logZs o = [zero]) /\ (in_logZerrs d = None -> st_logZerrs o = [zero]) /\
    (in_ncluster d = None -> st_ncluster o = 1%Z) /\ (in_nposterior d = None -> st_nposterior o = 0%Z) /\
    (in_nequals d = None -> st_nequals o = 0%Z) /\ (in_ndead d = None -> st_ndead o = 0%Z) /\
    (in_nlive d = None -> st_nlive o = 0%Z) /\ (in_nlike d = None -> st_nlike o = CNum 0) /\
    (in_avnlike d = None -> st_avnlike o = ANum zero) /\ (in_avnlikeslice d = None -> st_avnlikeslice o = ANum zero) /\
    (in_means d = None -> st_means o = Some [zero; zero; zero]) /\
    (in_errs d = None -> st_errs o = Some [zero; zero; zero]).
Proof.
  intros F d s o s' H. unfold write_stats_file in H.
  destruct (in_root d); [|discriminate]. destruct (in_base d); [|discriminate].
  destruct (in_extra d); [|discriminate]. cbn [assertb rbind] in H. injection H as <- _.
  cbn. repeat (split; [intros ->; reflexivity|]). intros ->; reflexivity.
Qed.
Print Assumptions C50_defaults.
Example C50_defaults_example : exists o s',
    write_stats_file (@mkIn int_floats (Some (la "run")) (Some (la "chains")) None None None None None None None None None
      None None None None None []) no_files = Ok (o, s') /\ st_means o = Some [0%Z; 0%Z; 0%Z] /\ st_ncluster o = 1%Z.
Proof. eexists. eexists. split; [reflexivity|]. split; reflexivity. Qed.

(** ** Any file *)
(** The lines of a file: all end with a newline, except that the last need
    not. *)
Definition line_end : ascii := "010"%char.
Definition lines_of (file : text) (lines : list text) : Prop :=
  (forall l, In l lines -> ~ In line_end l) /\
  (file = concat (map (fun l => l ++ [line_end]) lines) \/
   exists front l, lines = front ++ [l] /\ l <> [] /\ file = concat (map (fun l => l ++ [line_end]) front) ++ l).
(** The words of a line, separated by blanks. *)
Definition blank (c : ascii) : Prop :=
  In c [" "; "009"; "010"; "011"; "012"; "013"; "028"; "029"; "030"; "031"; "133"; "160"]%char.
Inductive words_are : text -> list text -> Prop :=
| no_words : forall b, Forall blank b -> words_are b []
| a_first_word : forall b w rest ws, Forall blank b -> w <> [] -> Forall (fun c => ~ blank c) w ->
    (rest = [] \/ exists c t, rest = c :: t /\ blank c) -> words_are rest ws -> words_are (b ++ w ++ rest) (w :: ws).
Definition line_words (lines : list text) (k : nat) (ws : list text) : Prop :=
  exists l, nth_error lines k = Some l /\ words_are l ws.
(** A line log(Z... = value ... error ... *)
Definition cluster {F} (l : text) (z e : num F) : Prop :=
  exists a b w0 w1 w2 ws, l = la "log(Z" ++ a ++ "="%char :: b /\ ~ In "="%char a /\
    words_are b (w0 :: w1 :: w2 :: ws) /\ read w0 = Some z /\ read w2 = Some e.
Inductive clusters {F} : list text -> list (num F) -> list (num F) -> Prop :=
| no_cluster : clusters [] [] []
| one_cluster : forall l z e ls zs es, cluster l z e -> clusters ls zs es -> clusters (l :: ls) (z :: zs) (e :: es).
(** Lines of means of parameters; others have a line of dashes. *)
Definition dashes : text := repeat "-"%char 18.
Definition has_dashes (l : text) : Prop := exists a b, l = a ++ dashes ++ b.
Inductive parameters {F} : list text -> list (num F) -> list (num F) -> Prop :=
| no_parameter : parameters [] [] []
| dashes_line : forall l ls ms es, has_dashes l -> parameters ls ms es -> parameters (l :: ls) ms es
| one_parameter : forall l ls m e ms es w0 w1 w2 w3 ws, ~ has_dashes l ->
    words_are l (w0 :: w1 :: w2 :: w3 :: ws) -> read w1 = Some m -> read w3 = Some e ->
    parameters ls ms es -> parameters (l :: ls) (m :: ms) (e :: es).
Inductive numbers {F} : list text -> list (num F) -> Prop :=
| no_number : numbers [] []
| one_number : forall w x ws xs, read w = Some x -> numbers ws xs -> numbers (w :: ws) (x :: xs).
Inductive integers : list text -> list Z -> Prop :=
| no_integer : integers [] []
| one_integer : forall w x ws xs, read_int w = Some x -> integers ws xs -> integers (w :: ws) (x :: xs).

(** The dictionary for the lines.  The evidence is in the ninth line, those of
    the clusters begin at the fifteenth, and the lines after them are at fixed
    distances. *)
Record file_says {F} (lines : list text) (o : stats F) : Prop := {
  says_logZ : exists a b z c e ws, line_words lines 8 (a :: b :: z :: c :: e :: ws) /\
    read z = Some (st_logZ o) /\ read e = Some (st_logZerr o);
  says_clusters : exists before ls line after, lines = before ++ ls ++ line :: after /\ length before = 14 /\
    (forall t, line <> la "log(Z" ++ t) /\ clusters ls (st_logZs o) (st_logZerrs o) /\ st_ncluster o = Z.of_nat (length ls);
  says_nposterior : exists a w ws, line_words lines (20 + length (st_logZs o)) (a :: w :: ws) /\ read_int w = Some (st_nposterior o);
  says_nequals : exists a w ws, line_words lines (21 + length (st_logZs o)) (a :: w :: ws) /\ read_int w = Some (st_nequals o);
  says_ndead : exists a w ws, line_words lines (22 + length (st_logZs o)) (a :: w :: ws) /\ read_int w = Some (st_ndead o);
  says_nlive : exists a w ws, line_words lines (23 + length (st_logZs o)) (a :: w :: ws) /\ read_int w = Some (st_nlive o);
  (** one integer, several, or something which is not an integer *)
  says_nlike : exists ws, line_words lines (24 + length (st_logZs o)) ws /\
    ((exists z, integers (tl ws) [z] /\ st_nlike o = CNum z) \/
     (exists zs, length zs <> 1 /\ integers (tl ws) zs /\ st_nlike o = CList zs) \/
     (exists w, In w (tl ws) /\ read_int w = None) /\ st_nlike o = CNan);
  (** from the second word up to the first bracket, and then without the last
      three words *)
  says_avnlike : exists ws us xs ys, line_words lines (25 + length (st_logZs o)) (ws ++ la "(" :: us) /\
    ~ In (la "(") ws /\ numbers (tl ws) xs /\ numbers (firstn (length us - 3) us) ys /\
    (if length xs =? 1 then exists v, xs = [v] /\ st_avnlike o = ANum v else st_avnlike o = AList xs) /\
    (if length ys =? 1 then exists v, ys = [v] /\ st_avnlikeslice o = ANum v else st_avnlikeslice o = AList ys);
  (** files of old versions end before *)
  says_parameters : if length lines <=? 29 + length (st_logZs o) then st_means o = None /\ st_errs o = None
    else exists before ls ms es, lines = before ++ ls /\ length before = 29 + length (st_logZs o) /\ parameters ls ms es /\
      st_means o = Some ms /\ st_errs o = Some es
}.

Lemma blank_ws : forall c, is_ws c = true <-> blank c.
Proof.
  intros c. split.
  - destruct c as [[] [] [] [] [] [] [] []]; intros H; vm_compute in H; try discriminate H; unfold blank; cbn; tauto.
  - intros H. unfold blank in H. cbn in H. repeat (destruct H as [<-|H]; [reflexivity|]). destruct H.
Qed.
Lemma split_blanks : forall b rest, Forall blank b -> split_ws (b ++ rest) = split_ws rest.
Proof. induction 1 as [|c b Hc _ IH]; auto. cbn [app]. rewrite split_space by (apply blank_ws; auto). auto. Qed.
Lemma words_split : forall l ws, words_are l ws -> split_ws l = ws.
Proof.
  induction 1 as [b Hb|b w rest ws Hb Hw Hn Hr Hws IH].
  - rewrite <- (app_nil_r b), split_blanks; auto.
  - rewrite split_blanks by auto.
    assert (Hword : a_word w).
    { split; auto. intros c Hc. rewrite Forall_forall in Hn. specialize (Hn c Hc).
      destruct (is_ws c) eqn:E; auto. exfalso. apply Hn, blank_ws. auto. }
    destruct Hr as [->|(c & t & -> & Hc)].
    + rewrite app_nil_r, split_end by auto. rewrite <- IH. reflexivity.
    + apply blank_ws in Hc. rewrite split_word by auto. f_equal. rewrite <- IH. rewrite split_space; auto.
Qed.
Lemma words_blank_end : forall l ws c, words_are l ws -> blank c -> words_are (l ++ [c]) ws.
Proof.
  intros l ws c H Hc. induction H as [b Hb|b w rest ws Hb Hw Hn Hr Hws IH].
  - constructor. apply Forall_app. auto.
  - rewrite <- !app_assoc. apply a_first_word; auto.
    destruct Hr as [->|(d & t & -> & Hd)]; right; [exists c, []|exists d, (t ++ [c])]; auto.
Qed.
Lemma line_end_blank : blank line_end.
Proof. unfold blank. cbn. tauto. Qed.

(** What readlines returns for a line. *)
Definition as_line (l l' : text) : Prop := l' = l ++ [line_end] \/ l' = l /\ l <> [].
Lemma readlines_last : forall l cur, ~ In newline l -> readlines_go cur l = match rev cur ++ l with [] => [] | x => [x] end.
Proof.
  induction l as [|c t IH]; intros cur H.
  - cbn [readlines_go]. rewrite app_nil_r. destruct cur as [|x u]; auto. destruct (rev (x :: u)) eqn:E; auto.
    apply (f_equal (@rev _)) in E. rewrite rev_involutive in E. discriminate.
  - cbn [readlines_go]. destruct (Ascii.eqb_spec c newline) as [->|Hc]; [exfalso; apply H; left; auto|].
    rewrite IH by (intros Hi; apply H; right; auto). cbn [rev]. rewrite <- app_assoc. auto.
Qed.
Lemma readlines_app : forall ls l, (forall x, In x ls -> ~ In newline x) -> ~ In newline l ->
    readlines (concat (map (fun l => l ++ [line_end]) ls) ++ l) = map (fun l => l ++ [line_end]) ls ++ match l with [] => [] | x => [x] end.
Proof.
  intros ls l H Hl. unfold readlines. induction ls as [|x ls IH].
  - cbn [map concat app]. rewrite readlines_last by auto. destruct l; reflexivity.
  - cbn [map concat]. rewrite <- !app_assoc. cbn [app]. change line_end with newline at 1.
    rewrite readlines_go_line by (apply H; left; auto). cbn [rev app]. change newline with line_end. f_equal. apply IH.
    intros y Hy. apply H. right. auto.
Qed.
Lemma readlines_of : forall file lines, lines_of file lines -> Forall2 as_line lines (readlines file).
Proof.
  intros file lines [Hn Hf].
  assert (Hall : forall ls, Forall2 as_line ls (map (fun l => l ++ [line_end]) ls)).
  { induction ls as [|l ls IH]; constructor; auto. left. auto. }
  destruct Hf as [->|(front & l & -> & Hl & ->)].
  - rewrite <- (app_nil_r (concat _)), readlines_app, app_nil_r; auto.
  - rewrite readlines_app.
    + apply Forall2_app; auto. destruct l as [|c t]; [congruence|]. constructor; [right; split; congruence|constructor].
    + intros x Hx. apply Hn, in_or_app. auto.
    + apply Hn, in_or_app. right. left. auto.
Qed.

Lemma as_line_words : forall l l' ws, as_line l l' -> words_are l ws -> split_ws l' = ws.
Proof.
  intros l l' ws [->|[-> _]] H; apply words_split; auto. apply words_blank_end; auto. apply line_end_blank.
Qed.
Lemma Forall2_nth : forall A B (R : A -> B -> Prop) a b k x, Forall2 R a b -> nth_error a k = Some x ->
    exists y, nth_error b k = Some y /\ R x y.
Proof.
  intros A B R a b k x H. revert k. induction H as [|u v a b Huv H IH]; intros k Hk; [destruct k; discriminate|].
  destruct k as [|k]; cbn in *; [injection Hk as <-; eauto|auto].
Qed.
Lemma get_words : forall lines raw k ws, Forall2 as_line lines raw -> line_words lines k ws ->
    exists l, get raw k = Ok l /\ split_ws l = ws.
Proof.
  intros lines raw k ws H (l & Hk & Hw). destruct (Forall2_nth _ _ _ _ _ _ _ H Hk) as (y & Hy & Ha).
  exists y. split; [unfold get; rewrite Hy; auto|]. eapply as_line_words; eauto.
Qed.
Lemma get_nth : forall A (l : list A) k x, nth_error l k = Some x -> get l k = Ok x.
Proof. intros. unfold get. rewrite H. auto. Qed.

Lemma until_newline_id : forall a, ~ In newline a -> until_newline a = a.
Proof.
  induction a as [|c t IH]; intros H; auto. cbn [until_newline].
  destruct (Ascii.eqb_spec c newline) as [->|Hc]; [exfalso; apply H; left; auto|].
  rewrite IH; auto. intros Hi. apply H. right. auto.
Qed.
Lemma text_eqb_spec : forall a b, text_eqb a b = true <-> a = b.
Proof. intros a b. unfold text_eqb. destruct (list_eq_dec ascii_dec a b); split; congruence. Qed.
Lemma word_of : forall l ws k w, split_ws l = ws -> nth_error ws k = Some w -> word l k = Ok w.
Proof. intros l ws k w H Hk. unfold word. rewrite H. apply get_nth. auto. Qed.

Lemma read_clusters_of : forall F ls raw zs es line line' rest, Forall2 as_line ls raw -> @clusters F ls zs es ->
    (forall l, In l ls -> ~ In newline l) ->
    as_line line line' -> (forall t, line <> la "log(Z" ++ t) ->
    @read_clusters F (raw ++ line' :: rest) = Ok (zs, es).
Proof.
  intros F ls raw zs es line line' rest H Hc Hnl Hline Hno. revert raw H. induction Hc as [|l z e ls zs es Hl Hc IH]; intros raw H.
  - inversion H; subst. cbn [app read_clusters].
    destruct (text_eqb (firstn 5 line') (la "log(Z")) eqn:E; auto. exfalso. apply text_eqb_spec in E.
    destruct Hline as [->|[-> _]].
    + destruct (Nat.leb_spec 5 (length line)) as [H5|H5].
      * rewrite firstn_app in E. replace (5 - length line) with 0 in E by lia. rewrite firstn_O, app_nil_r in E.
        apply (Hno (skipn 5 line)). rewrite <- E. symmetry. apply firstn_skipn.
      * assert (Hin : In newline (la "log(Z")).
        { rewrite <- E. rewrite firstn_app. apply in_or_app. right. change line_end with newline.
          destruct (5 - length line) as [|k] eqn:E5; [lia|]. left. auto. }
        cbn in Hin. intuition discriminate.
    + apply (Hno (skipn 5 line)). rewrite <- E. symmetry. apply firstn_skipn.
  - inversion H as [|l0 l' ls0 raw' Hal Hrest]; subst l0 ls0 raw.
    destruct Hl as (a & b & w0 & w1 & w2 & ws & El & Ha & Hw & Hz & He).
    assert (Hnb : ~ In newline b).
    { intros Hi. apply (Hnl l); [left; auto|]. rewrite El. apply in_or_app. right. apply in_or_app. right. right. auto. }
    cbn [app read_clusters].
    assert (E5 : firstn 5 l' = la "log(Z").
    { destruct Hal as [->|[-> _]]; rewrite El; reflexivity. }
    rewrite E5, text_eqb_refl. cbn [negb].
    assert (Et : after_equals l' = Some b).
    { assert (Hq : ~ In "="%char (la "log(Z")) by (cbn; intuition discriminate).
      destruct Hal as [->|[-> _]]; rewrite El, <- ?app_assoc; rewrite after_equals_skip by auto; rewrite after_equals_skip by auto;
        cbn [app after_equals Ascii.eqb Bool.eqb]; f_equal.
      - change line_end with newline. apply until_newline_end. auto.
      - apply until_newline_id. auto. }
    rewrite Et. cbn [rbind]. apply words_split in Hw.
    rewrite (word_of _ _ 0 w0 Hw) by auto. cbn [rbind]. rewrite Hz. cbn [value rbind].
    rewrite (word_of _ _ 2 w2 Hw) by auto. cbn [rbind]. rewrite He. cbn [value rbind].
    rewrite (IH (fun x Hx => Hnl x (or_intror Hx)) raw' Hrest). reflexivity.
Qed.

Lemma starts_with_spec : forall p l, starts_with p l = true <-> exists t, l = p ++ t.
Proof.
  induction p as [|x p IH]; intros l; cbn [starts_with]; [split; [exists l; auto|auto]|].
  destruct l as [|y l].
  - split; [discriminate|]. intros (t & H). discriminate.
  - rewrite andb_true_iff, IH. split.
    + intros (H1 & t & ->). apply Ascii.eqb_eq in H1 as ->. exists t. auto.
    + intros (t & H). injection H as -> ->. split; [apply Ascii.eqb_refl|eauto].
Qed.
Lemma contains_spec : forall p l, contains p l = true <-> exists a b, l = a ++ p ++ b.
Proof.
  intros p l. induction l as [|c l IH]; cbn [contains].
  - rewrite orb_false_r, starts_with_spec. split.
    + intros (t & H). exists [], t. auto.
    + intros (a & b & H). destruct a; [|discriminate]. exists b. auto.
  - rewrite orb_true_iff, IH, starts_with_spec. split.
    + intros [(t & H)|(a & b & ->)]; [exists [], t; auto|exists (c :: a), b; auto].
    + intros ([|x a] & b & H); [left; exists b; auto|right]. injection H as -> ->. exists a, b. auto.
Qed.
Lemma contains_line : forall l l', as_line l l' -> contains (la "------------------") l' = true <-> has_dashes l.
Proof.
  intros l l' H. rewrite contains_spec. change (la "------------------") with dashes. unfold has_dashes.
  destruct H as [->|[-> _]]; [|tauto]. split.
  - intros (a & b & E). destruct (exists_last (l := dashes ++ b)) as (u & x & Hu).
    { discriminate. }
    rewrite Hu, app_assoc in E. apply app_inj_tail in E as [E <-].
    destruct b as [|y b] using rev_ind.
    + rewrite app_nil_r in Hu. assert (Hin : In line_end dashes) by (rewrite Hu; apply in_or_app; right; left; auto).
      apply repeat_spec in Hin. discriminate.
    + rewrite app_assoc in Hu. apply app_inj_tail in Hu as [Hu _]. exists a, b. rewrite Hu, E. auto.
  - intros (a & b & ->). exists a, (b ++ [line_end]). rewrite <- !app_assoc. auto.
Qed.
Lemma read_params_of : forall F ls raw ms es, Forall2 as_line ls raw -> @parameters F ls ms es ->
    @read_params F raw = Ok (ms, es).
Proof.
  intros F ls raw ms es H Hp. revert raw H.
  induction Hp as [|l ls ms es Hd Hp IH|l ls m e ms es w0 w1 w2 w3 ws Hd Hw Hm He Hp IH]; intros raw H; inversion H; subst; auto.
  - cbn [read_params]. rewrite (proj2 (contains_line l y ltac:(assumption)) Hd). auto.
  - cbn [read_params]. destruct (contains _ y) eqn:E.
    + exfalso. apply Hd. apply (proj1 (contains_line l y ltac:(assumption))). auto.
    + pose proof (as_line_words l y _ ltac:(assumption) Hw) as Hy.
      rewrite (word_of _ _ 1 w1 Hy) by auto. cbn [rbind]. rewrite Hm. cbn [value rbind].
      rewrite (word_of _ _ 3 w3 Hy) by auto. cbn [rbind]. rewrite He. cbn [value rbind].
      rewrite (IH _ ltac:(eassumption)). reflexivity.
Qed.

Lemma mapM_numbers : forall F ws xs, @numbers F ws xs -> mapM (fun w => value (read w)) ws = Ok xs.
Proof. induction 1 as [|w x ws xs H _ IH]; auto. cbn [mapM]. rewrite H. cbn [value rbind]. rewrite IH. auto. Qed.
Lemma mapM_integers : forall ws xs, integers ws xs -> mapM (fun w => value (read_int w)) ws = Ok xs.
Proof. induction 1 as [|w x ws xs H _ IH]; auto. cbn [mapM]. rewrite H. cbn [value rbind]. rewrite IH. auto. Qed.
Lemma mapM_not_integer : forall ws w, In w ws -> read_int w = None -> exists e, mapM (fun w => value (read_int w)) ws = Raise e.
Proof.
  induction ws as [|x ws IH]; intros w Hi Hn; [destruct Hi|]. cbn [mapM].
  destruct (read_int x) as [z|] eqn:E; cbn [value rbind]; [|eauto].
  destruct Hi as [->|Hi]; [congruence|]. destruct (IH w Hi Hn) as (e & ->). cbn. eauto.
Qed.
Lemma index_of_spec : forall w a b, ~ In w a -> index_of w (a ++ w :: b) = Some (length a).
Proof.
  induction a as [|x a IH]; intros b H; cbn [app index_of].
  - rewrite text_eqb_refl. auto.
  - destruct (text_eqb x w) eqn:E.
    + exfalso. apply H. left. apply text_eqb_spec. auto.
    + rewrite IH by (intros Hi; apply H; right; auto). auto.
Qed.
Lemma one_or_list_spec : forall F (xs : list (num F)) v,
    (if length xs =? 1 then exists x, xs = [x] /\ v = ANum x else v = AList xs) -> one_or_list xs = v.
Proof.
  intros F [|x [|y xs]] v H; cbn in *; auto. destruct H as (z & Hz & ->). injection Hz as ->. auto.
Qed.
Lemma Forall2_skip : forall A B (R : A -> B -> Prop) a b k, Forall2 R a b -> Forall2 R (skipn k a) (skipn k b).
Proof.
  intros A B R a b k H. revert k. induction H as [|x y a b Hxy H IH]; intros [|k]; cbn; auto.
Qed.

Lemma bracket_words : forall ws us : list text,
    firstn (length ws - 1) (skipn 1 (ws ++ la "(" :: us)) = tl ws /\
    firstn (length (ws ++ la "(" :: us) - 3 - (length ws + 1)) (skipn (length ws + 1) (ws ++ la "(" :: us)) =
    firstn (length us - 3) us.
Proof.
  intros ws us. split.
  - destruct ws as [|w ws]; [reflexivity|]. cbn [length app skipn tl]. replace (S (length ws) - 1) with (length ws) by lia.
    rewrite firstn_app, firstn_all, Nat.sub_diag. cbn [firstn]. apply app_nil_r.
  - rewrite skipn_app, skipn_all2 by lia. replace (length ws + 1 - length ws) with 1 by lia. cbn [skipn app].
    f_equal. rewrite app_length. cbn [length]. lia.
Qed.

(** What the lines of a file say is what is read. *)
Theorem C50_any_file : forall F (s : store) file lines (o : stats F),
    s (path_join (st_base o) (st_root o) ++ la ".stats") = Some file ->
    lines_of file lines -> file_says lines o ->
    process_polychord_stats (st_root o) (st_base o) s = Ok o.
Proof.
  intros F s file lines o Hs Hl H. pose proof (proj1 Hl) as Hnl. apply readlines_of in Hl.
  unfold process_polychord_stats. rewrite Hs. set (raw := readlines file) in *. cbv zeta.
  destruct H as [(a & b & z & c & e & ws & H8 & Hz & He) (before & ls & line & after & El & Eb & Hline & Hcl & Hnc)
                 (a1 & n1 & r1 & H20 & N20) (a2 & n2 & r2 & H21 & N21) (a3 & n3 & r3 & H22 & N22) (a4 & n4 & r4 & H23 & N23)
                 (w5 & H24 & N24) (w6 & u6 & xs & ys & H25 & N25 & X & Y & AX & AY) Hpar].
  destruct (get_words _ _ _ _ Hl H8) as (l8 & G8 & W8). rewrite G8. cbn [rbind].
  rewrite (word_of _ _ 2 z W8) by auto. cbn [rbind]. rewrite Hz. cbn [value rbind].
  rewrite (word_of _ _ 4 e W8) by auto. cbn [rbind]. rewrite He. cbn [value rbind].
  assert (Hcr : @read_clusters F (skipn 14 raw) = Ok (st_logZs o, st_logZerrs o)).
  { pose proof (Forall2_skip _ _ _ _ _ 14 Hl) as Hk. rewrite El in Hk. rewrite <- Eb, skipn_app, skipn_all, Nat.sub_diag in Hk. cbn [skipn app] in Hk.
    apply Forall2_app_inv_l in Hk as (raw1 & raw2 & K1 & K2 & K3). rewrite Eb in K3. rewrite K3.
    inversion K2 as [|l0 l1 ls0 rest E1 E2]; subst l0 ls0 raw2.
    eapply read_clusters_of; eauto. intros l0 Hi. apply Hnl. rewrite El. apply in_or_app. right. apply in_or_app. auto. }
  rewrite Hcr. cbn [rbind]. set (n := length (st_logZs o)) in *.
  assert (Hn : length ls = n) by (unfold n; clear -Hcl; induction Hcl; cbn; auto).
  destruct (get_words _ _ _ _ Hl H20) as (l20 & G20 & W20). rewrite G20. cbn [rbind].
  rewrite (word_of _ _ 1 n1 W20) by auto. cbn [rbind]. rewrite N20. cbn [value rbind].
  destruct (get_words _ _ _ _ Hl H21) as (l21 & G21 & W21). rewrite G21. cbn [rbind].
  rewrite (word_of _ _ 1 n2 W21) by auto. cbn [rbind]. rewrite N21. cbn [value rbind].
  destruct (get_words _ _ _ _ Hl H22) as (l22 & G22 & W22). rewrite G22. cbn [rbind].
  rewrite (word_of _ _ 1 n3 W22) by auto. cbn [rbind]. rewrite N22. cbn [value rbind].
  destruct (get_words _ _ _ _ Hl H23) as (l23 & G23 & W23). rewrite G23. cbn [rbind].
  rewrite (word_of _ _ 1 n4 W23) by auto. cbn [rbind]. rewrite N23. cbn [value rbind].
  destruct (get_words _ _ _ _ Hl H24) as (l24 & G24 & W24). rewrite G24. cbn [rbind]. rewrite W24.
  destruct (get_words _ _ _ _ Hl H25) as (l25 & G25 & W25). rewrite G25. cbn [rbind]. rewrite W25.
  rewrite (index_of_spec (la "(") w6 u6 N25). cbn [value rbind].
  destruct (bracket_words w6 u6) as [-> ->].
  rewrite (mapM_numbers _ _ _ X). cbn [rbind].
  rewrite (mapM_numbers _ _ _ Y). cbn [rbind].
  rewrite (one_or_list_spec _ _ _ AX), (one_or_list_spec _ _ _ AY).
  match goal with |- context [match mapM ?f (tl w5) with _ => _ end] => assert (Ek : match mapM f (tl w5) with Ok [z0] => CNum z0 | Ok l => CList l | Raise _ => CNan end = st_nlike o) end.
  { destruct N24 as [(z0 & Hi & ->)|[(zs & Hlen & Hi & ->)|[(w & Hi & Hw) ->]]].
    - rewrite (mapM_integers _ _ Hi). auto.
    - rewrite (mapM_integers _ _ Hi). destruct zs as [|z0 [|z1 zs]]; auto. cbn in Hlen. lia.
    - destruct (mapM_not_integer _ _ Hi Hw) as (er & ->). auto. }
  rewrite Ek.
  assert (Hlen : length raw = length lines) by (clear -Hl; induction Hl; cbn; auto).
  rewrite Hlen. destruct (Nat.leb_spec (length lines) (29 + n)) as [Hle|Hlt].
  - destruct (Nat.ltb_spec (29 + n) (length lines)); [lia|]. cbn [rbind fst snd]. destruct Hpar as [Hm1 Hm2].
    rewrite <- Hn, <- Hnc. destruct o; cbn in *; subst; reflexivity.
  - destruct (Nat.ltb_spec (29 + n) (length lines)); [|lia].
    destruct Hpar as (before' & ls' & ms & es & El' & Eb' & Hp & Hm1 & Hm2).
    assert (Hpr : @read_params F (skipn (29 + n) raw) = Ok (ms, es)).
    { pose proof (Forall2_skip _ _ _ _ _ (29 + n) Hl) as Hk. rewrite El' in Hk. rewrite <- Eb', skipn_app, skipn_all, Nat.sub_diag in Hk.
      cbn [skipn app] in Hk. rewrite Eb' in Hk. eapply read_params_of; eauto. }
    rewrite Hpr. cbn [rbind fst snd]. rewrite <- Hn, <- Hnc. destruct o; cbn in *; subst; reflexivity.
Qed.
Print Assumptions C50_any_file.

(** ** A file without a final newline, with two clusters; the number of
    likelihood calls has too many digits. *)
Lemma split_are_go : forall n l, length l <= n -> words_are l (split_ws l).
Proof.
  assert (Hspan : forall l : text, exists a b, l = a ++ b /\ Forall (fun c => ~ blank c) a /\ (b = [] \/ exists c t, b = c :: t /\ blank c)).
  { induction l as [|c l (a & b & -> & Ha & Hb)]; [exists [], []; auto|].
    destruct (is_ws c) eqn:E.
    - exists [], (c :: a ++ b). split; auto. split; auto. right. exists c, (a ++ b). split; auto. apply blank_ws; auto.
    - exists (c :: a), b. split; auto. split; auto. constructor; auto. intros Hc. apply blank_ws in Hc. congruence. }
  induction n as [|n IH]; intros l Hl.
  - destruct l; [|cbn in Hl; lia]. constructor. constructor.
  - destruct l as [|c l]; [constructor; constructor|]. cbn in Hl. destruct (is_ws c) eqn:E.
    + rewrite split_space by auto. specialize (IH l ltac:(lia)). apply blank_ws in E.
      inversion IH as [b Hb H1 H2|b w rest ws Hb Hw Hn Hr Hws H1 H2].
      * constructor. constructor; auto.
      * change (c :: b ++ w ++ rest) with ((c :: b) ++ w ++ rest). apply a_first_word; auto.
    + destruct (Hspan l) as (a & b & -> & Ha & Hb).
      assert (Hn : Forall (fun c => ~ blank c) (c :: a)) by (constructor; auto; intros Hc; apply blank_ws in Hc; congruence).
      assert (Hs : words_are b (split_ws b)) by (apply IH; rewrite app_length in Hl; lia).
      pose proof (a_first_word [] (c :: a) b _ (Forall_nil _) ltac:(discriminate) Hn Hb Hs) as H. cbn [app] in H.
      rewrite (words_split _ _ H). auto.
Qed.
Lemma split_are : forall l, words_are l (split_ws l).
Proof. intros l. apply (split_are_go (length l)). auto. Qed.
Lemma words_computed : forall l ws, split_ws l = ws -> words_are l ws.
Proof. intros l ws <-. apply split_are. Qed.

Definition a_file_lines : list text := map la
  ["Evidence estimates:"; "==="; "  - The evidence Z"; "  - We denote"; ""; "Global evidence:"; "---"; "";
   "log(Z)       =  -12 +/-   3"; ""; ""; "Local evidences:"; "---"; "";
   "log(Z_ 1)  =  -13 +/-   1 (Still Active)"; "log(Z_ 2)  = -14 +/- 2";
   ""; ""; "Run-time information:"; "---"; ""; " ncluster:          0 /       1"; " nposterior:        40"; " nequals:           7"; " ndead:          100";
   " nlive:             25"; " nlike:         *******"; " <nlike>:       5 6   (    1 per slice )"; ""; "";
   "Dim No.       Mean        Sigma"; "1    4 +/-   1"; "-------------------------------"; "2    -5 +/-   1"]%string.
Definition a_file : text := removelast (concat (map (fun l => l ++ [line_end]) a_file_lines)).
Definition a_stats : stats int_floats :=
  @mkStats int_floats (la "run") (la "chains") (-12)%Z 3%Z [(-13)%Z; (-14)%Z] [1%Z; 2%Z] 2%Z 40%Z 7%Z 100%Z 25%Z
    CNan (@AList int_floats [5%Z; 6%Z]) (@ANum int_floats 1%Z) (Some [4%Z; (-5)%Z]) (Some [1%Z; 1%Z]).
Ltac say_words := eexists; split; [reflexivity|apply words_computed; reflexivity].
Example C50_any_file_example :
    lines_of a_file a_file_lines /\ file_says a_file_lines a_stats /\
    process_polychord_stats (la "run") (la "chains") (fun _ => Some a_file) = Ok a_stats.
Proof.
  assert (H1 : lines_of a_file a_file_lines).
  { split.
    - intros l Hl. cbn [a_file_lines map In] in Hl. repeat (destruct Hl as [<-|Hl]; [apply nl_lit; reflexivity|]). destruct Hl.
    - right. exists (removelast a_file_lines), (last a_file_lines []).
      split; [reflexivity|]. split; [discriminate|reflexivity]. }
  assert (H2 : file_says a_file_lines a_stats).
  { constructor.
    - do 6 eexists. split; [say_words|]. split; reflexivity.
    - exists (firstn 14 a_file_lines), (firstn 2 (skipn 14 a_file_lines)), [], (skipn 17 a_file_lines).
      split; [reflexivity|]. split; [reflexivity|]. split; [discriminate|]. split; [|reflexivity].
      constructor; [|constructor; [|constructor]].
      + exists (la "_ 1)  "), (la "  -13 +/-   1 (Still Active)"). do 4 eexists.
        split; [reflexivity|]. split; [cbn; intuition discriminate|]. split; [apply words_computed; reflexivity|split; reflexivity].
      + exists (la "_ 2)  "), (la " -14 +/- 2"). do 4 eexists.
        split; [reflexivity|]. split; [cbn; intuition discriminate|]. split; [apply words_computed; reflexivity|split; reflexivity].
    - do 3 eexists. split; [say_words|reflexivity].
    - do 3 eexists. split; [say_words|reflexivity].
    - do 3 eexists. split; [say_words|reflexivity].
    - do 3 eexists. split; [say_words|reflexivity].
    - eexists. split; [say_words|]. right. right. split; [|reflexivity]. exists (la "*******"). split; [left; reflexivity|reflexivity].
    - exists [la "<nlike>:"; la "5"; la "6"], [la "1"; la "per"; la "slice"; la ")"], [5%Z; 6%Z], [1%Z].
      split; [say_words|]. split; [cbn; intuition discriminate|].
      split; [repeat constructor|]. split; [repeat constructor|]. split; [reflexivity|]. exists 1%Z. split; reflexivity.
    - cbn. exists (firstn 31 a_file_lines), (skipn 31 a_file_lines), [4%Z; (-5)%Z], [1%Z; 1%Z].
      split; [reflexivity|]. split; [reflexivity|]. split; [|split; reflexivity].
      assert (Hn : forall l, contains (la "------------------") l = false -> ~ has_dashes l).
      { intros l H Hd. apply contains_spec in Hd. change dashes with (la "------------------") in Hd. congruence. }
      cbn [a_file_lines map skipn].
      eapply (@one_parameter int_floats _ _ 4%Z 1%Z [(-5)%Z] [1%Z]); [apply Hn; reflexivity|apply words_computed; reflexivity|reflexivity|reflexivity|].
      apply dashes_line; [exists [], (repeat "-"%char 13); reflexivity|].
      eapply (@one_parameter int_floats _ _ (-5)%Z 1%Z [] []); [apply Hn; reflexivity|apply words_computed; reflexivity|reflexivity|reflexivity|constructor]. }
  split; [exact H1|]. split; [exact H2|].
  apply (C50_any_file int_floats (fun _ => Some a_file) a_file a_file_lines a_stats); auto.
Qed.
