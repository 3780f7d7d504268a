(** * LexFacts: tokens of printed text *)
From Coq Require DecimalNat.
From Verif Require Import Base Core MiniRust Gen Items RLex BaseFacts.

Fixpoint pre (ts : list tok) (o : option (list tok)) : option (list tok) :=
  match ts with [] => o | t :: ts' => option_map (cons t) (pre ts' o) end.
Lemma pre_app a b o : pre (a ++ b) o = pre a (pre b o).
Proof. induction a; cbn [app pre]; [|rewrite IHa]; reflexivity. Qed.
Lemma pre_some ts r : pre ts (Some r) = Some (ts ++ r).
Proof. induction ts; cbn [app pre]; [|rewrite IHts]; reflexivity. Qed.
Lemma pre_split ts o r : o = Some r -> pre ts o = Some (ts ++ r).
Proof. intros ->. apply pre_some. Qed.

(** ** Words and numbers *)

Definition wordy (x : str) : bool := begins ident_start x && forallb ident_char x.
Definition edge (s : str) : bool := negb (begins (fun c => ident_char c || N.eqb c c_quote) s).

Lemma ident_wordy x : is_ident x = true -> wordy x = true.
Proof.
  unfold is_ident, wordy. destruct x as [|c x]; [discriminate|]. cbn [begins forallb]. unfold ident_char at 2.
  rewrite !andb_true_iff. intros [[[H1 H2] _] _]. rewrite H1. auto.
Qed.
Lemma ident_char_not c d : ident_char c = true -> ident_char d = false -> N.eqb c d = false.
Proof. intros H1 H2. apply N.eqb_neq. intros ->. congruence. Qed.
Lemma start_char c : ident_start c = true -> ident_char c = true.
Proof. unfold ident_char. intros ->. reflexivity. Qed.
Lemma digit_char c : is_digit c = true -> ident_char c = true.
Proof. unfold ident_char. intros ->. apply orb_true_r. Qed.
Lemma not_space c : ident_char c = true -> is_space c = false.
Proof.
  intros H. unfold is_space. cbn [existsb]. rewrite !(ident_char_not c) by (exact H || reflexivity). reflexivity.
Qed.
Lemma digit_not_start c : is_digit c = true -> ident_start c = false.
Proof.
  unfold is_digit, ident_start, is_upper, is_lower, in_range. rewrite andb_true_iff, !N.leb_le. intros [H1 H2].
  destruct (N.leb_spec 65 c); [lia|]. destruct (N.leb_spec 97 c); [lia|].
  destruct (N.eqb_spec c c_under) as [->|]; [|reflexivity]. unfold c_under in *. lia.
Qed.

Lemma lex_inword : forall x w s, forallb ident_char x = true -> edge s = true ->
  lex_from (InWord w) (x ++ s) = pre [Word (w ++ x)] (lex s).
Proof.
  induction x as [|c x IH]; intros w s Hx Hs.
  - rewrite app_nil_r. destruct s as [|c s]; [reflexivity|].
    unfold edge in Hs. cbn [begins] in Hs. rewrite negb_true_iff, orb_false_iff in Hs. destruct Hs as [H1 H2].
    unfold lex. cbn [app lex_from pre]. rewrite H1, H2. reflexivity.
  - cbn [forallb] in Hx. apply andb_true_iff in Hx. destruct Hx as [Hc Hx].
    cbn [app lex_from]. rewrite Hc. rewrite IH by assumption. rewrite <- app_assoc. reflexivity.
Qed.
Lemma lex_word x s : wordy x = true -> edge s = true -> lex (x ++ s) = pre [Word x] (lex s).
Proof.
  unfold wordy. destruct x as [|c x]; [discriminate|]. cbn [begins forallb]. rewrite !andb_true_iff.
  intros [Hc [_ Hx]] Hs. unfold lex. cbn [app lex_from]. rewrite (not_space c (start_char c Hc)), Hc.
  assert (E : (N.eqb c 98 && begins (N.eqb c_quote) (x ++ s))%bool = false).
  { apply andb_false_iff. right. destruct x as [|d x].
    - destruct s as [|d s]; [reflexivity|]. unfold edge in Hs. cbn [app begins] in *.
      rewrite negb_true_iff, orb_false_iff in Hs. rewrite N.eqb_sym. exact (proj2 Hs).
    - cbn [app begins forallb] in *. apply andb_true_iff in Hx. rewrite N.eqb_sym.
      apply ident_char_not; [apply Hx|reflexivity]. }
  rewrite E. apply (lex_inword x [c]); assumption.
Qed.

Definition num_edge (s : str) : bool :=
  negb (begins ident_char s) && (negb (begins (N.eqb 46) s) || is_prefix (lit "..") s).
Lemma lex_innum : forall x w s, forallb is_digit x = true -> num_edge s = true ->
  lex_from (InNum w) (x ++ s) = pre [Num (w ++ x)] (lex s).
Proof.
  induction x as [|c x IH]; intros w s Hx Hs.
  - rewrite app_nil_r. destruct s as [|c s]; [reflexivity|].
    unfold num_edge in Hs. cbn [begins] in Hs. apply andb_true_iff in Hs. destruct Hs as [H1 H2].
    apply negb_true_iff in H1. unfold lex. cbn [app lex_from pre].
    assert (Hd : is_digit c = false).
    { destruct (is_digit c) eqn:E; [|reflexivity]. apply digit_char in E. congruence. }
    rewrite Hd, H1.
    assert (E : (N.eqb c 46 && negb (begins (N.eqb 46) s))%bool = false).
    { rewrite N.eqb_sym. destruct (N.eqb 46 c) eqn:E; [|reflexivity]. cbn [negb orb] in H2.
      change (is_prefix (lit "..") (c :: s)) with (N.eqb 46 c && is_prefix (lit ".") s)%bool in H2.
      apply andb_true_iff in H2. destruct H2 as [_ H2]. destruct s as [|d s]; [discriminate H2|].
      change (is_prefix (lit ".") (d :: s)) with (N.eqb 46 d && true)%bool in H2. cbn [begins].
      rewrite andb_true_r in H2. rewrite H2. reflexivity. }
    rewrite E. reflexivity.
  - cbn [forallb] in Hx. apply andb_true_iff in Hx. destruct Hx as [Hc Hx].
    cbn [app lex_from]. rewrite Hc. rewrite IH by assumption. rewrite <- app_assoc. reflexivity.
Qed.
Lemma uint_digits d : forallb is_digit (uint_str d) = true.
Proof. induction d; cbn [uint_str forallb]; try rewrite IHd; reflexivity. Qed.
Lemma nat_str_digits n : forallb is_digit (nat_str n) = true.
Proof. apply uint_digits. Qed.
Lemma nat_str_some n : nat_str n <> [].
Proof.
  unfold nat_str. destruct (Nat.to_uint n) eqn:E; try discriminate.
  pose proof (DecimalNat.Unsigned.of_to n) as H. rewrite E in H. cbn in H. subst n. discriminate E.
Qed.
Lemma lex_num n s : num_edge s = true -> lex (nat_str n ++ s) = pre [Num (nat_str n)] (lex s).
Proof.
  pose proof (nat_str_digits n) as Hd. pose proof (nat_str_some n) as Hn. destruct (nat_str n) as [|c x]; [congruence|].
  intros Hs. cbn [forallb] in Hd. apply andb_true_iff in Hd. destruct Hd as [Hc Hx].
  unfold lex. cbn [app lex_from]. rewrite (not_space c (digit_char c Hc)), (digit_not_start c Hc), Hc.
  apply (lex_innum x [c]); assumption.
Qed.

(** ** Literals *)

Definition text_char (c : char) : bool := negb (N.eqb c c_quote) && negb (N.eqb c c_backslash) && negb (N.eqb c c_cr).
Lemma lex_intext (b : bool) : forall t w s,
  forallb (fun c => text_char c && (negb b || (c <? 128)%N)) t = true -> begins ident_char s = false ->
  lex_from (InText b w) (t ++ c_quote :: s) = pre [if b then Bytes (w ++ t) else Text (w ++ t)] (lex s).
Proof.
  induction t as [|c t IH]; intros w s Ht Hs.
  - rewrite app_nil_r. cbn [app lex_from]. rewrite N.eqb_refl, Hs. reflexivity.
  - cbn [forallb] in Ht. rewrite andb_true_iff in Ht. destruct Ht as [Hc Ht]. unfold text_char in Hc.
    rewrite !andb_true_iff, !negb_true_iff in Hc. destruct Hc as [[[H1 H2] H3] H4].
    cbn [app lex_from]. rewrite H1, H2, H3.
    assert (E : (b && (128 <=? c)%N)%bool = false).
    { destruct b; [|reflexivity]. cbn [negb orb andb] in *. apply N.ltb_lt in H4. apply N.leb_gt. exact H4. }
    rewrite E. cbn [orb]. rewrite IH by assumption. rewrite <- !app_assoc. reflexivity.
Qed.
Lemma lex_bytes t s : plain_lit t = true -> begins ident_char s = false ->
  lex (byte_lit t ++ s) = pre [Bytes t] (lex s).
Proof.
  intros Ht Hs. unfold byte_lit, quoted. rewrite <- !app_assoc.
  change (lex (lit "b" ++ [c_quote] ++ t ++ [c_quote] ++ s)) with (lex_from (InText true []) (t ++ c_quote :: s)).
  apply (lex_intext true t []); [|exact Hs].
  unfold plain_lit in Ht. rewrite forallb_forall in *. intros c Hc. apply Ht in Hc. unfold plain_byte_char in Hc.
  unfold text_char. cbn [negb orb]. rewrite !andb_true_iff in *. tauto.
Qed.
Lemma lex_text t s : forallb text_char t = true -> begins ident_char s = false ->
  lex (quoted t ++ s) = pre [Text t] (lex s).
Proof.
  intros Ht Hs. unfold quoted. rewrite <- !app_assoc.
  change (lex ([c_quote] ++ t ++ [c_quote] ++ s)) with (lex_from (InText false []) (t ++ c_quote :: s)).
  apply (lex_intext false t []); [|exact Hs].
  rewrite forallb_forall in *. intros c Hc. rewrite (Ht c Hc). reflexivity.
Qed.

(** ** Space and comments *)

Lemma lex_spaces d s : lex (spaces4 d ++ s) = lex s.
Proof. induction d; [reflexivity|]. cbn [spaces4]. rewrite <- app_assoc. exact IHd. Qed.
Lemma lex_nl s : lex (nl ++ s) = lex s.
Proof. reflexivity. Qed.
Lemma lex_incomment : forall t s, doc_line t = true -> lex_from InComment (t ++ nl ++ s) = lex s.
Proof.
  induction t as [|c t IH]; intros s H; [reflexivity|].
  unfold doc_line in H. cbn [forallb] in H. rewrite !andb_true_iff, !negb_true_iff in H. destruct H as [[H1 H2] H].
  cbn [app lex_from]. rewrite H1, H2. apply IH. exact H.
Qed.
Lemma lex_comment t s : doc_line t = true -> lex (lit "//" ++ t ++ nl ++ s) = lex s.
Proof. intros H. change (lex_from InComment (lit "/" ++ t ++ nl ++ s) = lex s). apply lex_incomment. exact H. Qed.

(** ** Operators before names and numbers *)

Definition plain_op (o : str) : bool :=
  str_eqb o (lit "..") ||
  match o with
  | [a] => negb (is_space a || ident_char a || N.eqb a c_quote || N.eqb a 39 || N.eqb a c_slash)
  | _ => false
  end.
Lemma lex_op o c s : operator_at (o ++ c :: s) = Some o -> plain_op o = true ->
  lex (o ++ c :: s) = pre [Op o] (lex (c :: s)).
Proof.
  intros Ho. destruct o as [|a o]; [discriminate|].
  assert (Hgo : is_space a = false /\ ident_start a = false /\ is_digit a = false /\ N.eqb a c_quote = false /\ N.eqb a 39 = false /\ N.eqb a c_slash = false ->
    lex ((a :: o) ++ c :: s) = option_map (cons (Op (a :: o))) (lex_from (Skip (length o)) (o ++ c :: s))).
  { intros (H1 & H2 & H3 & H4 & H5 & H6). cbn [app] in Ho. unfold lex. cbn [app lex_from]. rewrite H1, H2, H3, H4, H5, Ho.
    rewrite N.eqb_sym in H6. unfold c_slash in H6.
    change (is_prefix (lit "//") (a :: o ++ c :: s)) with (N.eqb 47 a && is_prefix (lit "/") (o ++ c :: s))%bool.
    change (is_prefix (lit "/*") (a :: o ++ c :: s)) with (N.eqb 47 a && is_prefix (lit "*") (o ++ c :: s))%bool.
    rewrite H6. reflexivity. }
  unfold plain_op. rewrite orb_true_iff. intros [H|H].
  - apply str_eqb_eq in H. injection H as -> ->. rewrite Hgo by (repeat split; reflexivity). reflexivity.
  - destruct o; [|discriminate]. rewrite negb_true_iff, !orb_false_iff in H. unfold ident_char in H.
    rewrite orb_false_iff in H. apply Hgo. tauto.
Qed.
Ltac before_ident H :=
  apply lex_op; [|reflexivity];
  match goal with |- operator_at (_ ++ ?c :: ?s) = _ =>
    pose proof (ident_char_not c 38 H eq_refl) as H1; pose proof (ident_char_not c 61 H eq_refl) as H2;
    pose proof (ident_char_not c 46 H eq_refl) as H3; pose proof (ident_char_not c 60 H eq_refl) as H4;
    rewrite N.eqb_sym in H1, H2, H3, H4;
    lazy -[N.eqb]; rewrite ?H1, ?H2, ?H3, ?H4; reflexivity
  end.
Lemma lex_amp s : begins ident_char s = true -> lex (lit "&" ++ s) = pre [Op (lit "&")] (lex s).
Proof. destruct s as [|c s]; [discriminate|]. intros H. before_ident H. Qed.
Lemma lex_plus s : begins ident_char s = true -> lex (lit "+" ++ s) = pre [Op (lit "+")] (lex s).
Proof. destruct s as [|c s]; [discriminate|]. intros H. before_ident H. Qed.
Lemma lex_less s : begins ident_char s = true -> lex (lit "<" ++ s) = pre [Op (lit "<")] (lex s).
Proof. destruct s as [|c s]; [discriminate|]. intros H. before_ident H. Qed.
Lemma lex_dots s : begins ident_char s = true -> lex (lit ".." ++ s) = pre [Op (lit "..")] (lex s).
Proof. destruct s as [|c s]; [discriminate|]. intros H. before_ident H. Qed.

Lemma begins_word x s : wordy x = true -> begins ident_char (x ++ s) = true.
Proof.
  unfold wordy. destruct x as [|c x]; [discriminate|]. cbn [begins app]. rewrite andb_true_iff. intros [H _].
  apply start_char. exact H.
Qed.
Lemma begins_num n s : begins ident_char (nat_str n ++ s) = true.
Proof.
  pose proof (nat_str_digits n) as Hd. pose proof (nat_str_some n) as Hn. destruct (nat_str n) as [|c x]; [congruence|].
  cbn [app begins forallb] in *. apply andb_true_iff in Hd. apply digit_char. apply Hd.
Qed.

(** Text that is followed by a line break. *)
Lemma no_nl_prefix o a s : ~ In c_nl o -> is_prefix o (a ++ nl ++ s) = is_prefix o a.
Proof.
  revert a. induction o as [|c o IH]; intros a H; [destruct a; reflexivity|].
  destruct a as [|d a].
  - cbn [app nl is_prefix]. destruct (N.eqb_spec c c_nl); [exfalso; apply H; left; congruence|reflexivity].
  - cbn [app is_prefix]. rewrite IH by (intros X; apply H; right; exact X). reflexivity.
Qed.
Lemma operator_line a s : operator_at (a ++ nl ++ s) = operator_at a.
Proof.
  unfold operator_at.
  assert (H : Forall (fun o => ~ In c_nl o) operators).
  { apply Forall_forall. intros o Ho Hin.
    assert (X : forallb (fun o => negb (existsb (N.eqb c_nl) o)) operators = true) by (vm_compute; reflexivity).
    rewrite forallb_forall in X. apply X in Ho. apply negb_true_iff in Ho.
    assert (existsb (N.eqb c_nl) o = true) by (apply existsb_exists; exists c_nl; rewrite N.eqb_refl; auto). congruence. }
  induction operators as [|o l IH]; [reflexivity|]. inversion H; subst. cbn [find].
  rewrite no_nl_prefix by assumption. destruct (is_prefix o a); [reflexivity|]. apply IH. assumption.
Qed.
Lemma begins_line f a s : f c_nl = false -> begins f (a ++ nl ++ s) = begins f a.
Proof. destruct a; [|reflexivity]. intros H. exact H. Qed.
Lemma operator_len s o : operator_at s = Some o -> is_prefix o s = true /\ o <> [].
Proof.
  unfold operator_at. intros H. apply find_some in H. destruct H as [H1 H2]. split; [exact H2|].
  intros ->. assert (X : forallb (fun o : str => match o with [] => false | _ => true end) operators = true) by (vm_compute; reflexivity).
  rewrite forallb_forall in X. apply X in H1. discriminate.
Qed.
Lemma lex_line s : forall a p ts,
  (forall n, p = Skip n -> n <= length a) -> lex_from p a = Some ts ->
  lex_from p (a ++ nl ++ s) = pre ts (lex s).
Proof.
  induction a as [|c a IH]; intros p ts Hp H.
  - destruct p; cbn in H; try discriminate; injection H as <-; try reflexivity.
    pose proof (Hp _ eq_refl) as Hn. cbn in Hn. replace n with 0 by lia. reflexivity.
  - assert (Hskip : forall n, n <= length a -> forall m, Skip n = Skip m -> m <= length a) by (intros n Hn m [= <-]; exact Hn).
    assert (Hnext : forall ts,
      (if is_space c then lex_from (Skip 0) a
       else if ident_start c then
         if N.eqb c 98 && begins (N.eqb c_quote) a then lex_from BeforeQuote a else lex_from (InWord [c]) a
       else if is_digit c then lex_from (InNum [c]) a
       else if N.eqb c c_quote then lex_from (InText false []) a
       else if N.eqb c 39 then if begins ident_start a then lex_from (InLife []) a else None
       else if is_prefix (lit "//") (c :: a) then lex_from InComment a
       else if is_prefix (lit "/*") (c :: a) then None
       else match operator_at (c :: a) with
            | Some o => option_map (cons (Op o)) (lex_from (Skip (pred (length o))) a)
            | None => None
            end) = Some ts ->
      (if is_space c then lex_from (Skip 0) (a ++ nl ++ s)
       else if ident_start c then
         if N.eqb c 98 && begins (N.eqb c_quote) (a ++ nl ++ s) then lex_from BeforeQuote (a ++ nl ++ s) else lex_from (InWord [c]) (a ++ nl ++ s)
       else if is_digit c then lex_from (InNum [c]) (a ++ nl ++ s)
       else if N.eqb c c_quote then lex_from (InText false []) (a ++ nl ++ s)
       else if N.eqb c 39 then if begins ident_start (a ++ nl ++ s) then lex_from (InLife []) (a ++ nl ++ s) else None
       else if is_prefix (lit "//") (c :: a ++ nl ++ s) then lex_from InComment (a ++ nl ++ s)
       else if is_prefix (lit "/*") (c :: a ++ nl ++ s) then None
       else match operator_at (c :: a ++ nl ++ s) with
            | Some o => option_map (cons (Op o)) (lex_from (Skip (pred (length o))) (a ++ nl ++ s))
            | None => None
            end) = pre ts (lex s)).
    { clear ts H. intros ts.
      rewrite (begins_line (N.eqb c_quote)) by reflexivity. rewrite (begins_line ident_start) by reflexivity.
      change (c :: a ++ nl ++ s) with ((c :: a) ++ nl ++ s). rewrite !no_nl_prefix by (intros [X|[X|[]]]; discriminate X).
      rewrite operator_line.
      destruct (is_space c); [apply IH; apply Hskip; lia|].
      destruct (ident_start c); [destruct (_ && _)%bool; apply IH; intros; discriminate|].
      destruct (is_digit c); [apply IH; intros; discriminate|].
      destruct (N.eqb c c_quote); [apply IH; intros; discriminate|].
      destruct (N.eqb c 39); [destruct (begins ident_start a); [apply IH; intros; discriminate|discriminate]|].
      destruct (is_prefix (lit "//") _); [apply IH; intros; discriminate|].
      destruct (is_prefix (lit "/*") _); [discriminate|].
      destruct (operator_at (c :: a)) as [o|] eqn:Eo; [|discriminate].
      destruct (lex_from (Skip (pred (length o))) a) as [ts'|] eqn:El; [|discriminate].
      intros [= <-]. cbn [pre]. rewrite (IH _ ts'); [reflexivity| |exact El].
      apply Hskip. destruct (operator_len _ _ Eo) as [H1 H2].
      assert (Hle : length o <= length (c :: a)).
      { clear -H1. revert H1. generalize (c :: a). induction o as [|x o IHo]; intros [|y l]; cbn; intros H; try lia; try discriminate.
        apply andb_true_iff in H. destruct H as [_ H]. apply IHo in H. lia. }
      destruct o; [congruence|]. cbn [length pred] in *. lia. }
    cbn [app lex_from] in *. destruct p as [[|n]|w|w|b w|w| |].
    + apply Hnext. exact H.
    + apply IH; [|exact H]. apply Hskip. specialize (Hp _ eq_refl). cbn in Hp. lia.
    + destruct (ident_char c); [apply IH; [intros; discriminate|exact H]|]. destruct (N.eqb c c_quote); [discriminate|].
      match type of H with option_map _ ?x = _ => destruct x as [ts'|] eqn:E; [|discriminate] end.
      injection H as <-. cbn [pre]. rewrite (Hnext _ eq_refl). reflexivity.
    + destruct (is_digit c); [apply IH; [intros; discriminate|exact H]|]. destruct (ident_char c); [discriminate|].
      rewrite (begins_line (N.eqb 46)) by reflexivity.
      destruct (N.eqb c 46 && _)%bool; [discriminate|].
      match type of H with option_map _ ?x = _ => destruct x as [ts'|] eqn:E; [|discriminate] end.
      injection H as <-. cbn [pre]. rewrite (Hnext _ eq_refl). reflexivity.
    + destruct (N.eqb c c_quote).
      * rewrite (begins_line ident_char) by reflexivity. destruct (begins ident_char a); [discriminate|].
        destruct (lex_from (Skip 0) a) as [ts'|] eqn:E; [|discriminate]. injection H as <-. cbn [pre].
        rewrite (IH _ ts'); [reflexivity| |exact E]. apply Hskip. lia.
      * destruct (_ || _)%bool; [discriminate|]. apply IH; [intros; discriminate|exact H].
    + destruct (ident_char c); [apply IH; [intros; discriminate|exact H]|]. destruct (N.eqb c 39) eqn:E39; [discriminate|].
      match type of H with option_map _ ?x = _ => destruct x as [ts'|] eqn:E; [|discriminate] end.
      injection H as <-. cbn [pre]. rewrite (Hnext _ eq_refl). reflexivity.
    + apply IH; [intros; discriminate|exact H].
    + destruct (N.eqb c c_nl); [apply IH; [apply Hskip; lia|exact H]|].
      destruct (N.eqb c c_cr); [discriminate|]. apply IH; [intros; discriminate|exact H].
Qed.
Lemma lex_closed_line a ts s : lex a = Some ts -> lex (a ++ nl ++ s) = pre ts (lex s).
Proof. intros H. apply lex_line; [intros n [= <-]; lia|exact H]. Qed.
