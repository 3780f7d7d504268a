(** * ParseFacts: termination of the parser and what it consumes *)
From Verif Require Import Base Core Nom Parse Spec SpecMatch SpecParse BaseFacts TrieFacts.

Lemma Forall2_impl {A B} (P Q : A -> B -> Prop) l l' :
  (forall a b, P a b -> Q a b) -> Forall2 P l l' -> Forall2 Q l l'.
Proof. intros HPQ. induction 1; constructor; auto. Qed.

(** ** What a parser consumes *)
Definition reads {A} (p : parser A) (Q : str -> A -> Prop) : Prop :=
  forall i r a, p i = POk r a -> exists w, i = w ++ r /\ Q w a.

Lemma reads_weaken {A} (p : parser A) (Q Q' : str -> A -> Prop) :
  (forall w a, Q w a -> Q' w a) -> reads p Q -> reads p Q'.
Proof. intros HQ H i r a Hp. destruct (H _ _ _ Hp) as (w & Hi & Hq). eauto. Qed.
Lemma reads_bind {A B} (p : parser A) (f : A -> parser B) Q Q' :
  reads p Q -> (forall a, (exists w, Q w a) -> reads (f a) (Q' a)) ->
  reads (pbind p f) (fun w b => exists w1 a w2, w = w1 ++ w2 /\ Q w1 a /\ Q' a w2 b).
Proof.
  intros Hp Hf i r b H. unfold pbind in H. destruct (p i) as [i1 a| | |] eqn:E; try discriminate.
  destruct (Hp _ _ _ E) as (w1 & -> & Hq). destruct (Hf a (ex_intro _ w1 Hq) _ _ _ H) as (w2 & -> & Hq').
  exists (w1 ++ w2). rewrite app_assoc. split; [reflexivity|]. exists w1, a, w2. auto.
Qed.
Lemma reads_ret {A} (a : A) : reads (pret a) (fun w b => w = [] /\ b = a).
Proof. intros i r b [= <- <-]. exists []. auto. Qed.
Lemma reads_alt {A} (p q : parser A) Q : reads p Q -> reads q Q -> reads (alt p q) Q.
Proof.
  intros Hp Hq i r a H. unfold alt in H. destruct (p i) as [i1 b| | |] eqn:E; try discriminate; [|apply Hq; exact H].
  injection H as <- <-. apply Hp. exact E.
Qed.
Lemma reads_error {A} (p : parser A) Q : reads p Q -> reads (return_error p) Q.
Proof.
  intros Hp i r a H. unfold return_error in H. destruct (p i) as [i1 b| | |] eqn:E; try discriminate.
  injection H as <- <-. apply Hp. exact E.
Qed.
Lemma skipn_prefix t i : is_prefix t i = true -> i = t ++ skipn (length t) i.
Proof. intros H. apply is_prefix_iff in H. destruct H as [u ->]. rewrite skipn_app, skipn_all, Nat.sub_diag. reflexivity. Qed.
Lemma reads_tag t : reads (tag t) (fun w _ => w = t).
Proof.
  intros i r a H. unfold tag in H. destruct (is_prefix t i) eqn:E; [|discriminate]. injection H as <- _.
  exists t. split; [apply skipn_prefix; exact E|reflexivity].
Qed.
Lemma reads_char c : reads (pchar c) (fun w _ => w = [c]).
Proof.
  intros [|x i] r a H; [discriminate|]. cbn [pchar] in H. destruct (N.eqb_spec x c) as [->|]; [|discriminate].
  injection H as <- _. exists [c]. auto.
Qed.
Lemma span_spec f s : s = fst (span f s) ++ snd (span f s) /\ Forall (fun c => f c = true) (fst (span f s)) /\
  (forall c, hd_error (snd (span f s)) = Some c -> f c = false).
Proof.
  induction s as [|x s IH]; cbn [span].
  - split; [reflexivity|]. split; [constructor|]. discriminate.
  - destruct (f x) eqn:E.
    + destruct (span f s) as [a b]. cbn [fst snd] in *. destruct IH as (-> & H1 & H2).
      split; [reflexivity|]. split; [constructor; auto|exact H2].
    + split; [reflexivity|]. split; [constructor|]. intros c [= <-]. exact E.
Qed.
Lemma reads_take f : reads (take_while1 f) (fun w a => w = a /\ a <> [] /\ Forall (fun c => f c = true) a).
Proof.
  intros i r a H. unfold take_while1 in H. pose proof (span_spec f i) as (Hi & Hf & _).
  destruct (span f i) as [[|x b] r']; [discriminate|]. injection H as <- <-.
  exists (x :: b). split; [exact Hi|]. split; [reflexivity|]. split; [discriminate|exact Hf].
Qed.
Definition spaces (w : str) : Prop := Forall (fun c => is_sp c = true) w.
Lemma reads_sp : reads sp (fun w _ => spaces w).
Proof.
  intros i r a H. injection H as <- _. pose proof (span_spec is_sp i) as (Hi & Hf & _). eauto.
Qed.
Lemma reads_ws {A} (p : parser A) Q : reads p Q ->
  reads (ws p) (fun w a => exists w1 w2 w3, w = w1 ++ w2 ++ w3 /\ spaces w1 /\ Q w2 a /\ spaces w3).
Proof.
  intros Hp. unfold ws. eapply reads_weaken; [|eapply reads_bind; [apply reads_sp|intros ? ?; eapply reads_bind;
    [exact Hp|intros ? ?; eapply reads_bind; [apply reads_sp|intros ? ?; apply reads_ret]]]].
  cbn beta. intros w a (w1 & ? & w' & -> & H1 & w2 & a' & w'' & -> & H2 & w3 & ? & w4 & -> & H3 & -> & ->).
  rewrite app_nil_r. exists w1, w2, w3. auto.
Qed.
Lemma app_self {A} (w r : list A) : r = w ++ r -> w = [].
Proof.
  intros H. apply (f_equal (@length A)) in H. rewrite app_length in H. destruct w; [reflexivity|simpl in H; lia].
Qed.
Lemma reads_many_aux {A} (p : parser A) Q : reads p Q ->
  forall fuel, reads (many0_aux fuel p) (fun w l => exists ws, w = concat ws /\ Forall2 Q ws l).
Proof.
  intros Hp. induction fuel as [|fuel IH]; intros i r l H; [discriminate|]. cbn [many0_aux] in H.
  destruct (p i) as [r1 a| | |] eqn:E; try discriminate.
  - destruct (str_eqb r1 i).
    + injection H as <- <-. exists []. split; [reflexivity|]. exists []. auto.
    + destruct (many0_aux fuel p r1) as [r2 l2| | |] eqn:E2; try discriminate. injection H as <- <-.
      destruct (Hp _ _ _ E) as (w1 & -> & Hq). destruct (IH _ _ _ E2) as (w2 & -> & ws & -> & HF).
      exists (w1 ++ concat ws). rewrite app_assoc. split; [reflexivity|]. exists (w1 :: ws). auto.
  - injection H as <- <-. exists []. split; [reflexivity|]. exists []. auto.
Qed.
Lemma reads_many0 {A} (p : parser A) Q : reads p Q ->
  reads (many0 p) (fun w l => exists ws, w = concat ws /\ Forall2 Q ws l).
Proof. intros Hp i. unfold many0. apply reads_many_aux. exact Hp. Qed.
Lemma reads_many1 {A} (p : parser A) Q : reads p Q ->
  reads (many1 p) (fun w l => l <> [] /\ exists ws, w = concat ws /\ Forall2 Q ws l).
Proof.
  intros Hp. unfold many1. eapply reads_weaken; [|eapply reads_bind; [exact Hp|intros ? ?; eapply reads_bind;
    [apply reads_many0; exact Hp|intros ? ?; apply reads_ret]]].
  cbn beta. intros w l (w1 & a & w' & -> & H1 & w2 & l2 & w3 & -> & (ws & -> & HF) & -> & ->).
  split; [discriminate|]. exists (w1 :: ws). rewrite app_nil_r. auto.
Qed.
Lemma reads_line_ending : reads line_ending (fun w _ => newline w).
Proof.
  intros [|x i] r a H; [discriminate|]. cbn [line_ending] in H.
  destruct (N.eqb_spec x c_nl) as [->|_]; [injection H as <- _; exists [c_nl]; split; [reflexivity|constructor]|].
  destruct (N.eqb_spec x c_cr) as [->|_]; [|discriminate]. destruct i as [|y i]; [discriminate|].
  destruct (N.eqb_spec y c_nl) as [->|_]; [|discriminate]. injection H as <- _.
  exists [c_cr; c_nl]. split; [reflexivity|constructor].
Qed.
Lemma newlines_concat ws (l : list unit) : Forall2 (fun w _ => newline w) ws l -> ws = [] \/ newlines (concat ws).
Proof.
  induction 1 as [|w u ws l Hw _ IH]; auto. right. cbn [concat]. destruct IH as [->|IH].
  - cbn [concat]. rewrite app_nil_r. apply newlines_one. exact Hw.
  - apply newlines_more; auto.
Qed.
Lemma reads_endings : reads (many1 line_ending) (fun w _ => newlines w).
Proof.
  eapply reads_weaken; [|apply reads_many1, reads_line_ending].
  intros w l (Hl & ws & -> & HF). destruct (newlines_concat _ _ HF) as [->|H]; [|exact H].
  inversion HF; subst. congruence.
Qed.
Lemma newline_spaces w : newline w -> spaces w.
Proof. destruct 1; repeat constructor. Qed.
Lemma newlines_spaces w : newlines w -> spaces w.
Proof. induction 1; [apply newline_spaces; auto|]. apply Forall_app. split; [apply newline_spaces|]; auto. Qed.
Lemma reads_endings0 : reads (many0 line_ending) (fun w _ => spaces w).
Proof.
  eapply reads_weaken; [|apply reads_many0, reads_line_ending].
  intros w l (ws & -> & HF). destruct (newlines_concat _ _ HF) as [->|H]; [constructor|apply newlines_spaces; exact H].
Qed.

(** ** Termination *)
(** On inputs of at most [n] characters, [p] does not run out of fuel and leaves
    a suffix. *)
Definition safe {A} (n : nat) (p : parser A) : Prop :=
  forall i, length i <= n -> p i <> PFuel /\ forall r a, p i = POk r a -> exists w, i = w ++ r.
Definition eats {A} (p : parser A) : Prop := forall i r a, p i = POk r a -> length r < length i.

Lemma safe_reads {A} n (p : parser A) Q : reads p Q -> (forall i, p i <> PFuel) -> safe n p.
Proof. intros Hp Hn i _. split; [apply Hn|]. intros r a H. destruct (Hp _ _ _ H) as (w & -> & _). eauto. Qed.
Lemma suffix_length (w r : str) : length r <= length (w ++ r).
Proof. rewrite app_length. lia. Qed.
Lemma safe_bind {A B} n (p : parser A) (f : A -> parser B) :
  safe n p -> (forall a, safe n (f a)) -> safe n (pbind p f).
Proof.
  intros Hp Hf i Hi. unfold pbind. destruct (Hp i Hi) as [Hn Hs].
  destruct (p i) as [r a| | |]; try (split; [congruence|discriminate]); try congruence.
  destruct (Hs _ _ eq_refl) as [w ->]. destruct (Hf a r) as [Hn2 Hs2]; [pose proof (suffix_length w r); lia|].
  split; [exact Hn2|]. intros r2 b E. destruct (Hs2 _ _ E) as [w2 ->]. exists (w ++ w2). apply app_assoc.
Qed.
(** The second parser sees a shorter input. *)
Lemma safe_bind_eats {A B} n (p : parser A) (f : A -> parser B) :
  safe (S n) p -> eats p -> (forall a, safe n (f a)) -> safe (S n) (pbind p f).
Proof.
  intros Hp He Hf i Hi. unfold pbind. destruct (Hp i Hi) as [Hn Hs]. specialize (He i).
  destruct (p i) as [r a| | |]; try (split; [congruence|discriminate]); try congruence.
  specialize (He _ _ eq_refl).
  destruct (Hs _ _ eq_refl) as [w ->]. destruct (Hf a r) as [Hn2 Hs2]; [lia|].
  split; [exact Hn2|]. intros r2 b E. destruct (Hs2 _ _ E) as [w2 ->]. exists (w ++ w2). apply app_assoc.
Qed.
Lemma safe_ret {A} n (a : A) : safe n (pret a).
Proof. intros i _. split; [discriminate|]. intros r b [= <- <-]. exists []. reflexivity. Qed.
Lemma safe_alt {A} n (p q : parser A) : safe n p -> safe n q -> safe n (alt p q).
Proof.
  intros Hp Hq i Hi. destruct (Hp i Hi) as [H1 H2]. unfold alt.
  destruct (p i) as [r a| | |]; try (apply Hq; exact Hi); try (split; [congruence|discriminate]); try congruence.
  split; [discriminate|]. intros r' a' [= <- <-]. eauto.
Qed.
Lemma safe_error {A} n (p : parser A) : safe n p -> safe n (return_error p).
Proof.
  intros Hp i Hi. destruct (Hp i Hi) as [H1 H2]. unfold return_error.
  destruct (p i) as [r a| | |]; try (split; [congruence|discriminate]); try congruence.
  split; [discriminate|]. intros r' a' [= <- <-]. eauto.
Qed.
Lemma safe_many_aux {A} n (p : parser A) : safe n p -> forall fuel i, length i < fuel -> length i <= n ->
  many0_aux fuel p i <> PFuel /\ forall r a, many0_aux fuel p i = POk r a -> exists w, i = w ++ r.
Proof.
  intros Hp. induction fuel as [|fuel IH]; intros i Hf Hi; [lia|]. cbn [many0_aux].
  destruct (Hp i Hi) as [H1 H2]. destruct (p i) as [r a| | |] eqn:E.
  - destruct (str_eqb_spec r i) as [->|Hne].
    + split; [discriminate|]. intros r' a' [= <- <-]. exists []. reflexivity.
    + destruct (H2 _ _ eq_refl) as [w ->].
      assert (Hl : length r < length (w ++ r)).
      { rewrite app_length. destruct w; [exfalso; apply Hne; reflexivity|simpl; lia]. }
      destruct (IH r) as [H3 H4]; [lia|lia|].
      destruct (many0_aux fuel p r) as [r2 l| | |] eqn:E2; try (split; [congruence|discriminate]); try congruence.
      split; [discriminate|]. intros r' a' [= <- <-]. destruct (H4 _ _ eq_refl) as [w2 ->].
      exists (w ++ w2). apply app_assoc.
  - split; [discriminate|]. intros r' a' [= <- <-]. exists []. reflexivity.
  - split; [discriminate|discriminate].
  - congruence.
Qed.
Lemma safe_many0 {A} n (p : parser A) : safe n p -> safe n (many0 p).
Proof. intros Hp i Hi. unfold many0. apply (safe_many_aux n p Hp); [lia|exact Hi]. Qed.
Lemma safe_many1 {A} n (p : parser A) : safe n p -> safe n (many1 p).
Proof.
  intros Hp. unfold many1. apply safe_bind; [exact Hp|]. intros a. apply safe_bind; [apply safe_many0, Hp|].
  intros l. apply safe_ret.
Qed.
Lemma safe_tag n t : safe n (tag t).
Proof. eapply safe_reads; [apply reads_tag|]. intros i. unfold tag. destruct (is_prefix t i); discriminate. Qed.
Lemma safe_char n c : safe n (pchar c).
Proof. eapply safe_reads; [apply reads_char|]. intros [|x i]; [discriminate|]. cbn. destruct (N.eqb x c); discriminate. Qed.
Lemma safe_take n f : safe n (take_while1 f).
Proof.
  eapply safe_reads; [apply reads_take|]. intros i. unfold take_while1. destruct (span f i) as [[|? ?] ?]; discriminate.
Qed.
Lemma safe_sp n : safe n sp.
Proof. eapply safe_reads; [apply reads_sp|]. discriminate. Qed.
Lemma safe_ws {A} n (p : parser A) : safe n p -> safe n (ws p).
Proof.
  intros Hp. unfold ws. apply safe_bind; [apply safe_sp|]. intros _. apply safe_bind; [exact Hp|]. intros a.
  apply safe_bind; [apply safe_sp|]. intros _. apply safe_ret.
Qed.
Lemma safe_line_ending n : safe n line_ending.
Proof.
  eapply safe_reads; [apply reads_line_ending|]. intros [|x i]; [discriminate|]. cbn.
  destruct (N.eqb x c_nl); [discriminate|]. destruct (N.eqb x c_cr); [|discriminate].
  destruct i as [|y i]; [discriminate|]. destruct (N.eqb y c_nl); discriminate.
Qed.
Lemma safe_count {A} n (p : parser A) k : safe n p -> safe n (pcount p k).
Proof. intros Hp. induction k as [|k IH]; [apply safe_ret|]. apply safe_bind; auto. Qed.
Lemma no_case_prefix t i : is_prefix_no_case t i = true ->
  exists w, i = w ++ skipn (length t) i /\ map to_lower w = map to_lower t.
Proof.
  revert i. induction t as [|x t IH]; intros [|y i] H; try discriminate.
  - exists []. auto.
  - exists []. auto.
  - cbn [is_prefix_no_case] in H. apply andb_true_iff in H. destruct H as [H1 H2].
    destruct (IH _ H2) as (w & Hw & Hl). exists (y :: w). cbn [length skipn app map].
    apply N.eqb_eq in H1. rewrite <- Hw, Hl, H1. auto.
Qed.
Lemma reads_no_case t : reads (tag_no_case t) (fun w _ => map to_lower w = map to_lower t).
Proof.
  intros i r a H. unfold tag_no_case in H. destruct (is_prefix_no_case t i) eqn:E; [|discriminate].
  injection H as <- _. apply no_case_prefix. exact E.
Qed.
Lemma safe_no_case n t : safe n (tag_no_case t).
Proof.
  eapply safe_reads; [apply reads_no_case|]. intros i. unfold tag_no_case.
  destruct (is_prefix_no_case t i); discriminate.
Qed.
Lemma eats_reads {A} (p : parser A) (Q : str -> A -> Prop) : reads p Q -> (forall w a, Q w a -> w <> []) -> eats p.
Proof.
  intros Hp HQ i r a H. destruct (Hp _ _ _ H) as (w & -> & Hq). specialize (HQ _ _ Hq).
  rewrite app_length. destruct w; [congruence|simpl; lia].
Qed.

Section Parse.
Variable ualnum : char -> bool.
Notation is_ident := (is_identifier_char ualnum).

Lemma ident_char_iff c : is_ident c = true <-> ident_char ualnum c.
Proof.
  unfold is_identifier_char, is_alphanumeric, ident_char, is_upper, is_lower, is_digit, c_under.
  rewrite orb_true_iff. destruct (N.ltb_spec c 128) as [Hc|Hc].
  - rewrite !orb_true_iff, !andb_true_iff, !N.leb_le, N.eqb_eq. intuition lia.
  - rewrite N.eqb_eq. intuition lia.
Qed.
Lemma ident_iff s : ident ualnum s <-> s <> [] /\ Forall (fun c => is_ident c = true) s.
Proof.
  unfold ident. rewrite !Forall_forall. split; intros [H1 H2]; (split; [exact H1|]); intros c Hc;
    apply ident_char_iff; auto.
Qed.

(** *** Header lines *)
Definition header_text : parser str := recognize (pnot (pchar c_slash) ;; many0 not_line_ending).
Lemma line_spec i : match not_line_ending i with
  | POk r a => i = a ++ r /\ ~ In c_nl a /\ ~ In c_cr a /\ not_line_ending r = POk r []
  | PErr => exists a r, i = a ++ c_cr :: r /\ ~ In c_nl a /\ ~ In c_cr a /\ hd_error r <> Some c_nl
  | _ => False end.
Proof.
  unfold not_line_ending. pose proof (span_spec is_line_char i) as (Hi & Hf & Hs).
  assert (Hnil : span is_line_char [] = ([], [])) by reflexivity.
  destruct (span is_line_char i) as [a r]. cbn [fst snd] in *.
  assert (Ha : ~ In c_nl a /\ ~ In c_cr a).
  { rewrite Forall_forall in Hf. split; intros Hin; specialize (Hf _ Hin); discriminate. }
  destruct Ha as [Ha1 Ha2].
  destruct r as [|x r]; [auto|]. specialize (Hs x eq_refl).
  assert (Hx : span is_line_char (x :: r) = ([], x :: r)) by (cbn [span]; rewrite Hs; reflexivity).
  destruct (N.eqb_spec x c_cr) as [->|Hcr].
  - destruct (is_prefix [c_cr; c_nl] (c_cr :: r)) eqn:Ep.
    + rewrite Hx. cbn [N.eqb]. rewrite N.eqb_refl, Ep. auto.
    + exists a, r. repeat (split; [assumption|]). destruct r as [|y r]; [discriminate|]. cbn [hd_error].
      intros [= ->]. discriminate.
  - rewrite Hx. destruct (N.eqb_spec x c_cr); [congruence|]. auto.
Qed.
Lemma header_text_eq i : header_text i =
  match i with
  | x :: _ => if N.eqb x c_slash then PErr else
      match not_line_ending i with POk r a => POk r a | _ => POk i [] end
  | [] => POk [] []
  end.
Proof.
  unfold header_text, recognize, pbind, pnot. destruct i as [|x i]; [reflexivity|]. cbn [pchar].
  destruct (N.eqb x c_slash); [reflexivity|]. unfold many0. cbn [length many0_aux].
  pose proof (line_spec (x :: i)) as H. destruct (not_line_ending (x :: i)) as [r a| | |]; try contradiction.
  - destruct H as (Hi & _ & _ & Hr). destruct (str_eqb_spec r (x :: i)) as [->|Hne].
    + apply app_self in Hi. subst a. rewrite Nat.sub_diag. reflexivity.
    + rewrite Hr, str_eqb_refl. change (S (length i)) with (length (x :: i)). rewrite Hi, app_length. do 2 f_equal.
      replace (length a + length r - length r) with (length a) by lia.
      rewrite firstn_app, Nat.sub_diag, firstn_all. apply app_nil_r.
  - rewrite Nat.sub_diag. reflexivity.
Qed.
Lemma header_eq i : header_p i = (do text <- header_text; do _u <- many1 line_ending; pret (mkHeader text)) i.
Proof. reflexivity. Qed.
Definition wf_line (s : str) : Prop := ~ In c_nl s /\ ~ In c_cr s /\ hd_error s <> Some c_slash.
Lemma reads_header_text : reads header_text (fun w a => w = a /\ wf_line a).
Proof.
  intros i r a H. rewrite header_text_eq in H. destruct i as [|x i].
  - injection H as <- <-. exists []. split; [reflexivity|]. split; [reflexivity|]. repeat split; simpl; auto; discriminate.
  - destruct (N.eqb_spec x c_slash) as [|Hx]; [discriminate|]. pose proof (line_spec (x :: i)) as L.
    destruct (not_line_ending (x :: i)) as [r' a'| | |]; try contradiction; injection H as <- <-.
    + destruct L as (Hi & H1 & H2 & _). exists a'. split; [exact Hi|]. split; [reflexivity|].
      split; [exact H1|]. split; [exact H2|]. destruct a' as [|y a']; [discriminate|]. injection Hi as <- _.
      cbn [hd_error]. congruence.
    + exists []. split; [reflexivity|]. split; [reflexivity|]. repeat split; simpl; auto; discriminate.
Qed.
Lemma header_text_fuel i : header_text i <> PFuel.
Proof.
  rewrite header_text_eq. destruct i as [|x i]; [discriminate|]. destruct (N.eqb x c_slash); [discriminate|].
  destruct (not_line_ending (x :: i)); discriminate.
Qed.
Lemma safe_header n : safe n header_p.
Proof.
  unfold header_p. apply safe_bind.
  - eapply safe_reads; [apply reads_header_text|apply header_text_fuel].
  - intros t. apply safe_bind; [apply safe_many1, safe_line_ending|]. intros _. apply safe_ret.
Qed.

(** *** The grammar *)
Lemma safe_method n : safe n method_p.
Proof.
  unfold method_p. repeat apply safe_alt; (apply safe_bind; [apply safe_no_case|intros _; apply safe_ret]).
Qed.
Lemma safe_param n : safe n (param_p ualnum).
Proof.
  unfold param_p. apply safe_bind; [apply safe_take|]. intros a. apply safe_bind.
  - apply safe_ws, safe_error, safe_tag.
  - intros _. apply safe_bind; [apply safe_take|]. intros t. apply safe_ret.
Qed.
Lemma safe_indent n level : safe n (indent_p level).
Proof. apply safe_count, safe_tag. Qed.
Lemma safe_query n level : safe n (query_parameter_p ualnum level).
Proof.
  unfold query_parameter_p. apply safe_bind; [apply safe_indent|]. intros _.
  apply safe_bind; [apply safe_char|]. intros _. apply safe_bind; [apply safe_ws, safe_param|]. intros p.
  apply safe_bind; [apply safe_error, safe_char|]. intros _. apply safe_ret.
Qed.
Lemma safe_segment n level : safe n (path_segment_p ualnum level).
Proof.
  unfold path_segment_p. apply safe_bind; [apply safe_indent|]. intros _. apply safe_alt.
  - apply safe_bind; [apply safe_char|]. intros _. apply safe_bind; [apply safe_ws, safe_param|]. intros p.
    apply safe_bind; [apply safe_error, safe_char|]. intros _. apply safe_ret.
  - apply safe_bind; [apply safe_take|]. intros t. apply safe_ret.
Qed.
Lemma safe_modules n : safe n (modules_p ualnum).
Proof.
  apply safe_many0. apply safe_bind; [apply safe_take|]. intros m. apply safe_bind; [apply safe_ws, safe_tag|].
  intros _. apply safe_ret.
Qed.
Lemma safe_target n : safe n (target_p ualnum).
Proof.
  unfold target_p. apply safe_alt.
  - apply safe_bind; [apply safe_ws, safe_tag|]. intros _. apply safe_bind; [apply safe_modules|]. intros m.
    apply safe_bind; [apply safe_take|]. intros a. apply safe_ret.
  - apply safe_bind; [apply safe_modules|]. intros m.
    apply safe_bind; [apply safe_take|]. intros a. apply safe_ret.
Qed.
Lemma safe_newline n : safe n require_newline.
Proof.
  unfold require_newline. apply safe_error, safe_bind; [apply safe_many1, safe_line_ending|]. intros _. apply safe_ret.
Qed.
Lemma safe_resource n level : safe n (resource_p ualnum level).
Proof.
  unfold resource_p. apply safe_bind; [apply safe_indent|]. intros _. apply safe_bind; [apply safe_method|]. intros m.
  apply safe_bind; [apply safe_char|]. intros _. apply safe_bind; [apply safe_target|]. intros t.
  apply safe_bind; [apply safe_newline|]. intros _. apply safe_bind; [|intros q; apply safe_ret].
  apply safe_many0. apply safe_bind; [apply safe_query|]. intros q. apply safe_bind; [apply safe_newline|].
  intros _. apply safe_ret.
Qed.
Lemma safe_body n nested level : safe n (nested level) -> safe n (routes_body_p ualnum nested level).
Proof.
  intros Hn. unfold routes_body_p, resources_and_routes_p. apply safe_bind.
  - apply safe_many0. apply safe_bind; [apply safe_query|]. intros q.
    apply safe_bind; [apply safe_many1, safe_line_ending|]. intros _. apply safe_ret.
  - intros query. apply safe_bind; [|intros rnr; apply safe_ret]. apply safe_error, safe_alt.
    + apply safe_bind; [apply safe_many1, safe_resource|]. intros rs. apply safe_bind; [|intros rt; apply safe_ret].
      apply safe_alt; [|apply safe_ret]. apply safe_bind; [apply safe_many0, safe_line_ending|]. intros _.
      apply safe_many1. exact Hn.
    + apply safe_bind; [apply safe_many1; exact Hn|]. intros rt. apply safe_ret.
Qed.

(** *** What the parts of the grammar consume *)
Lemma nonspace_app a b : nonspace (a ++ b) = nonspace a ++ nonspace b.
Proof. apply filter_app. Qed.
Lemma nonspace_spaces w : spaces w -> nonspace w = [].
Proof.
  induction 1 as [|c w Hc _ IH]; auto. unfold nonspace in *. cbn [filter].
  replace (is_space c) with (is_sp c) by reflexivity. rewrite Hc. exact IH.
Qed.
Lemma told_app p w p' w' : told p w -> told p' w' -> told (p ++ p') (w ++ w').
Proof.
  intros (ps & H1 & F1) (ps' & H2 & F2). exists (ps ++ ps').
  rewrite nonspace_app, H1, H2, concat_app. split; [reflexivity|]. apply Forall2_app; assumption.
Qed.
Lemma told_cons x p w w' : told [x] w -> told p w' -> told (x :: p) (w ++ w').
Proof. apply (told_app [x]). Qed.
Lemma told_spaces w : spaces w -> told [] w.
Proof. intros H. exists []. rewrite nonspace_spaces by exact H. split; constructor. Qed.
Lemma told_before p w w' : spaces w -> told p w' -> told p (w ++ w').
Proof. intros H. apply (told_app []). apply told_spaces. exact H. Qed.
Lemma told_after p w w' : told p w -> spaces w' -> told p (w ++ w').
Proof. intros H H'. rewrite <- (app_nil_r p). apply told_app; [exact H|apply told_spaces; exact H']. Qed.
Lemma told_word s : told [word s] s.
Proof. exists [nonspace s]. split; [simpl; rewrite app_nil_r; reflexivity|]. constructor; [reflexivity|constructor]. Qed.
Lemma told_nil : told [] [].
Proof. apply told_spaces. constructor. Qed.
Lemma told_concat {A} (f : A -> list (bool * str)) ws l :
  Forall2 (fun w a => told (f a) w) ws l -> told (flat_map f l) (concat ws).
Proof. induction 1; [apply told_nil|]. cbn [flat_map concat]. apply told_app; assumption. Qed.

Lemma verb_letters w m : map to_lower w = map to_lower (method_display m) -> nonspace w = w.
Proof.
  intros H. assert (Hf : Forall (fun c => is_space c = false) w).
  { apply Forall_forall. intros c Hc. apply (in_map to_lower) in Hc. rewrite H in Hc.
    destruct (is_space c) eqn:E; [|reflexivity]. unfold is_space in E. rewrite !orb_true_iff, !N.eqb_eq in E.
    destruct E as [[[->| ->]| ->]| ->]; destruct m; vm_compute in Hc; intuition discriminate. }
  unfold nonspace. clear H. induction Hf as [|c w Hc _ IH]; auto. cbn [filter]. rewrite Hc, IH. reflexivity.
Qed.
Definition Qmethod (w : str) (m : Method) : Prop := map to_lower w = map to_lower (method_display m).
Lemma reads_method : reads method_p Qmethod.
Proof.
  unfold method_p. repeat apply reads_alt;
  (eapply reads_weaken; [|eapply reads_bind; [apply reads_no_case|intros ? ?; apply reads_ret]];
   cbn beta; intros w m (w1 & ? & w2 & -> & H & -> & ->); rewrite app_nil_r; unfold Qmethod; rewrite H; reflexivity).
Qed.
Lemma told_verb w m : Qmethod w m -> told [verb m] w.
Proof.
  intros H. exists [w]. rewrite (verb_letters _ _ H). split; [simpl; rewrite app_nil_r; reflexivity|].
  constructor; [exact H|constructor].
Qed.
Definition Qident (w a : str) : Prop := w = a /\ ident ualnum a.
Lemma reads_ident : reads (take_while1 is_ident) Qident.
Proof.
  eapply reads_weaken; [|apply reads_take]. intros w a (H1 & H2). split; [exact H1|]. apply ident_iff. exact H2.
Qed.
Definition Qparam (w : str) (p : Param) : Prop := w <> [] /\ wf_param ualnum p /\ told (param_words p) w.
Lemma reads_colon : reads colon_p (fun w _ => w = lit ":").
Proof. apply reads_error, reads_tag. Qed.
Lemma reads_param : reads (param_p ualnum) Qparam.
Proof.
  unfold param_p. eapply reads_weaken; [|eapply reads_bind; [apply reads_ident|intros ? ?; eapply reads_bind;
    [apply reads_ws, reads_colon|intros ? ?; eapply reads_bind; [apply reads_ident|intros ? ?; apply reads_ret]]]].
  cbn beta. intros w p (w1 & n & w' & -> & (-> & Hn) & w2 & ? & w'' & -> & (s1 & s2 & s3 & -> & S1 & -> & S3)
    & w3 & t & w4 & -> & (-> & Ht) & -> & ->).
  split; [destruct Hn as [Hn _]; destruct n; [congruence|discriminate]|].
  split; [split; assumption|]. unfold param_words. cbn [p_name p_typ].
  apply told_cons; [apply told_word|]. rewrite <- !app_assoc. apply told_before; [exact S1|].
  apply told_cons; [apply told_word|]. apply told_before; [exact S3|]. rewrite app_nil_r. apply told_word.
Qed.
Lemma reads_indent level : reads (indent_p level) (fun w _ => w = concat (repeat (lit "  ") level)).
Proof.
  unfold indent_p. induction level as [|level IH].
  - eapply reads_weaken; [|apply reads_ret]. intros w a (-> & _). reflexivity.
  - cbn [pcount]. eapply reads_weaken; [|eapply reads_bind; [apply reads_tag|intros ? ?; exact IH]].
    cbn beta. intros w a (w1 & ? & w2 & -> & -> & ->). reflexivity.
Qed.
Lemma indent_spaces level : spaces (concat (repeat (lit "  ") level)).
Proof. induction level as [|level IH]; [constructor|]. cbn [repeat concat]. apply Forall_app. split; [repeat constructor|exact IH]. Qed.
Definition Qquery (w : str) (p : Param) : Prop := w <> [] /\ wf_param ualnum p /\ told (query_words p) w.
(** A parameter between two brackets. *)
Lemma reads_bracket {B} l r (f : Param -> B) : reads
  (pchar l ;; do param <- ws (param_p ualnum); return_error (pchar r) ;; pret (f param))
  (fun w b => exists p, b = f p /\ w <> [] /\ wf_param ualnum p /\ told (word [l] :: param_words p ++ [word [r]]) w).
Proof.
  eapply reads_weaken; [|eapply reads_bind; [apply reads_char|intros ? ?; eapply reads_bind;
    [apply reads_ws, reads_param|intros ? ?; eapply reads_bind; [apply reads_error, reads_char|intros ? ?; apply reads_ret]]]].
  cbn beta. intros w b (w1 & ? & w' & -> & -> & w2 & p & w'' & -> & (s1 & s2 & s3 & -> & S1 & (_ & Hp & Ht) & S3)
    & w3 & ? & w4 & -> & -> & -> & ->).
  exists p. split; [reflexivity|]. split; [discriminate|]. split; [exact Hp|].
  apply told_cons; [apply told_word|]. rewrite <- !app_assoc. apply told_before; [exact S1|].
  apply told_app; [exact Ht|]. apply told_before; [exact S3|]. rewrite app_nil_r. apply told_word.
Qed.
Lemma reads_query level : reads (query_parameter_p ualnum level) Qquery.
Proof.
  unfold query_parameter_p. eapply reads_weaken; [|eapply reads_bind; [apply reads_indent|intros ? ?; apply reads_bracket]].
  cbn beta. intros w p (w1 & ? & w2 & -> & -> & p' & -> & Hw & Hp & Ht).
  split; [destruct w2; [congruence|]; intros E; apply app_eq_nil in E; destruct E; discriminate|].
  split; [exact Hp|]. apply told_before; [apply indent_spaces|exact Ht].
Qed.
Lemma reads_newline : reads require_newline (fun w _ => newlines w).
Proof.
  unfold require_newline. apply reads_error.
  eapply reads_weaken; [|eapply reads_bind; [apply reads_endings|intros ? ?; apply reads_ret]].
  cbn beta. intros w ? (w1 & ? & w2 & -> & H & -> & _). rewrite app_nil_r. exact H.
Qed.
Definition Qsegment (w : str) (s : PathSegment) : Prop := w <> [] /\ wf_segment ualnum s /\ told (segment_words s) w.
Lemma reads_segment level : reads (path_segment_p ualnum level) Qsegment.
Proof.
  unfold path_segment_p. eapply reads_weaken; [|eapply reads_bind; [apply reads_indent|intros ? ?]].
  2: { instantiate (1 := fun _ => Qsegment). apply reads_alt.
       - eapply reads_weaken; [|apply reads_bracket]. intros w s (p & -> & Hp). exact Hp.
       - eapply reads_weaken; [|eapply reads_bind; [apply reads_ident|intros ? ?; apply reads_ret]].
         cbn beta. intros w s (w1 & t & w2 & -> & (-> & Ht) & -> & ->). rewrite app_nil_r.
         split; [apply Ht|]. split; [exact Ht|]. apply told_word. }
  cbn beta. intros w s (w1 & ? & w2 & -> & -> & Hw & Hs & Ht).
  split; [destruct w2; [congruence|]; intros E; apply app_eq_nil in E; destruct E; discriminate|].
  split; [exact Hs|]. apply told_before; [apply indent_spaces|exact Ht].
Qed.
Definition module_words (m : str) : list (bool * str) := [word m; word (lit "::")].
Lemma reads_modules : reads (modules_p ualnum)
  (fun w l => Forall (ident ualnum) l /\ told (flat_map module_words l) w).
Proof.
  unfold modules_p. eapply reads_weaken; [|apply reads_many0; eapply reads_bind; [apply reads_ident|intros ? ?;
    eapply reads_bind; [apply reads_ws, reads_tag|intros ? ?; apply reads_ret]]].
  cbn beta. intros w l (ws & -> & HF).
  assert (H : Forall2 (fun w m => ident ualnum m /\ told (module_words m) w) ws l).
  { eapply Forall2_impl; [|exact HF]. cbn beta.
    intros w m (w1 & m' & w2 & -> & (-> & Hm) & w3 & ? & w4 & -> & (s1 & s2 & s3 & -> & S1 & -> & S3) & -> & ->).
    split; [exact Hm|]. rewrite app_nil_r. apply told_cons; [apply told_word|]. apply told_before; [exact S1|].
    apply told_after; [apply told_word|exact S3]. }
  split.
  - clear HF. induction H as [|? ? ? ? [H1 _] _ IH]; constructor; auto.
  - apply told_concat. eapply Forall2_impl; [|exact H]. cbn beta. intros ? ? [_ Ht]. exact Ht.
Qed.
Definition target_words (t : bool * list str * str) : list (bool * str) :=
  (if fst (fst t) then [word (lit "->")] else []) ++ flat_map module_words (snd (fst t)) ++ [word (snd t)].
Definition Qtarget (w : str) (t : bool * list str * str) : Prop :=
  Forall (ident ualnum) (snd (fst t)) /\ ident ualnum (snd t) /\ told (target_words t) w.
Lemma reads_target : reads (target_p ualnum) Qtarget.
Proof.
  unfold target_p. apply reads_alt.
  - eapply reads_weaken; [|eapply reads_bind; [apply reads_ws, reads_tag|intros ? ?; eapply reads_bind;
      [apply reads_modules|intros ? ?; eapply reads_bind; [apply reads_ident|intros ? ?; apply reads_ret]]]].
    cbn beta. intros w t (w1 & ? & w' & -> & (s1 & s2 & s3 & -> & S1 & -> & S3) & w2 & ms & w'' & -> & (Hm & Tm)
      & w3 & a & w4 & -> & (-> & Ha) & -> & ->).
    split; [exact Hm|]. split; [exact Ha|]. unfold target_words. cbn [fst snd app].
    rewrite <- !app_assoc. apply told_before; [exact S1|]. apply told_cons; [apply told_word|].
    apply told_before; [exact S3|]. apply told_app; [exact Tm|]. rewrite app_nil_r. apply told_word.
  - eapply reads_weaken; [|eapply reads_bind;
      [apply reads_modules|intros ? ?; eapply reads_bind; [apply reads_ident|intros ? ?; apply reads_ret]]].
    cbn beta. intros w t (w2 & ms & w'' & -> & (Hm & Tm) & w3 & a & w4 & -> & (-> & Ha) & -> & ->).
    split; [exact Hm|]. split; [exact Ha|]. unfold target_words. cbn [fst snd app].
    apply told_app; [exact Tm|]. rewrite app_nil_r. apply told_word.
Qed.
(** Parameters, each followed by line breaks. *)
Lemma told_after_newlines p w w' : told p w -> newlines w' -> told p (w ++ w').
Proof. intros H H'. apply told_after; [exact H|apply newlines_spaces; exact H']. Qed.
Lemma reads_query_line {B} (p : parser Param) (e : parser B) : reads p Qquery -> reads e (fun w _ => newlines w) ->
  reads (do q <- p; e ;; pret q) Qquery.
Proof.
  intros Hp He. eapply reads_weaken; [|eapply reads_bind; [exact Hp|intros ? ?; eapply reads_bind;
    [exact He|intros ? ?; apply reads_ret]]].
  cbn beta. intros w q (w1 & q' & w2 & -> & (H1 & H2 & H3) & w3 & ? & w4 & -> & H4 & -> & ->). rewrite app_nil_r.
  split; [destruct w1; [congruence|discriminate]|]. split; [exact H2|]. apply told_after_newlines; assumption.
Qed.
Lemma told_lines {A} (Q : A -> Prop) f ws l : Forall2 (fun (w : str) (a : A) => w <> [] /\ Q a /\ told (f a) w) ws l ->
  Forall Q l /\ told (flat_map f l) (concat ws).
Proof.
  intros H. split; [induction H as [|? ? ? ? [_ [H1 _]] _ IH]; constructor; auto|].
  apply told_concat. eapply Forall2_impl; [|exact H]. cbn beta. intros ? ? [_ [_ Ht]]. exact Ht.
Qed.
Lemma reads_queries (p : parser Param) : reads p Qquery ->
  reads (many0 p) (fun w l => Forall (wf_param ualnum) l /\ told (flat_map query_words l) w).
Proof.
  intros Hp. eapply reads_weaken; [|apply reads_many0; exact Hp]. cbn beta. intros w l (ws & -> & HF).
  apply told_lines in HF. exact HF.
Qed.
Definition Qresource (w : str) (r : Resource) : Prop :=
  w <> [] /\ wf_resource ualnum r /\ told (resource_words r) w.
Lemma reads_resource level : reads (resource_p ualnum level) Qresource.
Proof.
  unfold resource_p. eapply reads_weaken; [|eapply reads_bind; [apply reads_indent|intros ? ?; eapply reads_bind;
    [apply reads_method|intros ? ?; eapply reads_bind; [apply reads_char|intros ? ?; eapply reads_bind;
    [apply reads_target|intros ? ?; eapply reads_bind; [apply reads_newline|intros ? ?; eapply reads_bind;
    [apply reads_queries, reads_query_line; [apply reads_query|apply reads_newline]|intros ? ?; apply reads_ret]]]]]]].
  cbn beta. intros w r (w1 & ? & w' & -> & -> & w2 & m & w'' & -> & Hm & w3 & ? & w''' & -> & ->
    & w4 & t & w4' & -> & (Ht1 & Ht2 & Ht3) & w5 & ? & w5' & -> & Hn & w6 & q & w7 & -> & (Hq & Tq) & -> & ->).
  split.
  { intros E. apply app_eq_nil in E. destruct E as [_ E]. apply app_eq_nil in E. destruct E as [_ E]. discriminate. }
  split; [split; [exact Ht1|split; [exact Ht2|exact Hq]]|].
  unfold resource_words. cbn [r_method r_modules r_name r_is_redirect r_query]. apply told_before; [apply indent_spaces|].
  apply told_cons; [apply told_verb; exact Hm|]. apply told_before; [repeat constructor|].
  rewrite !app_assoc. rewrite <- (app_assoc _ _ [word (snd t)]).
  rewrite <- (app_assoc w4). rewrite app_nil_r. 
  apply told_app; [exact Ht3|]. apply told_before; [apply newlines_spaces; exact Hn|exact Tq].
Qed.
Lemma every_block_cons P rs ch q : every_block P (mkRoutes rs ch q) <->
  P (mkRoutes rs ch q) /\ forall seg child, In (seg, child) ch -> every_block P child.
Proof.
  split.
  - intros H. split; [exact (H _ _ _ (block_root _))|]. intros seg child Hin p q' x Hx.
    exact (H _ _ _ (block_step (mkRoutes rs ch q) seg child p q' x Hin Hx)).
  - intros [H1 H2] p q' x Hx. inversion Hx as [|? seg child ? ? ? Hin Hx']; subst; [exact H1|].
    exact (H2 seg child Hin _ _ _ Hx').
Qed.
Definition nested_words (nr : NestedRoutes) : list (bool * str) :=
  match nr with (seg, child) => segment_words seg ++ routes_words child end.
Definition Qnested (w : str) (nr : NestedRoutes) : Prop :=
  w <> [] /\ (wf_segment ualnum (fst nr) /\ every_block (wf_block ualnum) (snd nr)) /\ told (nested_words nr) w.
Definition Qroutes (w : str) (b : Routes) : Prop :=
  every_block (wf_block ualnum) b /\ told (routes_words b) w.
Lemma reads_body nested level : reads (nested level) Qnested -> reads (routes_body_p ualnum nested level) Qroutes.
Proof.
  intros Hn. unfold routes_body_p.
  eapply reads_weaken; [|eapply reads_bind; [apply reads_queries, reads_query_line; [apply reads_query|apply reads_endings]
    |intros ? ?; eapply reads_bind; [|intros ? ?; apply reads_ret]]].
  2: { unfold resources_and_routes_p. apply reads_error.
       instantiate (1 := fun w rnr => (fst rnr <> [] \/ snd rnr <> []) /\ Forall (wf_resource ualnum) (fst rnr) /\
         Forall (fun nr : NestedRoutes => wf_segment ualnum (fst nr) /\ every_block (wf_block ualnum) (snd nr)) (snd rnr) /\
         told (flat_map resource_words (fst rnr) ++ flat_map nested_words (snd rnr)) w).
       cbn beta. apply reads_alt.
       - eapply reads_weaken; [|eapply reads_bind; [apply reads_many1, reads_resource|intros ? ?; eapply reads_bind;
           [|intros ? ?; apply reads_ret]]].
         2: { instantiate (1 := fun w l => 
                Forall (fun nr : NestedRoutes => wf_segment ualnum (fst nr) /\ every_block (wf_block ualnum) (snd nr)) l /\
                told (flat_map nested_words l) w). cbn beta.
              apply reads_alt.
              - eapply reads_weaken; [|eapply reads_bind; [apply reads_endings0|intros ? ?; apply reads_many1, Hn]].
                cbn beta. intros w l (w1 & ? & w2 & -> & Hs & _ & ws & -> & HF). apply told_lines in HF.
                split; [apply HF|]. apply told_before; [exact Hs|apply HF].
              - eapply reads_weaken; [|apply reads_ret]. cbn beta. intros w l (-> & ->). split; [constructor|apply told_nil]. }
         cbn beta. intros w rnr (w1 & rs & w' & -> & (Hne & ws & -> & HF) & w2 & l & w3 & -> & (Hl & Tl) & -> & ->).
         apply told_lines in HF. cbn [fst snd]. split; [left; exact Hne|]. split; [apply HF|]. split; [exact Hl|].
         rewrite app_nil_r. apply told_app; [apply HF|exact Tl].
       - eapply reads_weaken; [|eapply reads_bind; [apply reads_many1, Hn|intros ? ?; apply reads_ret]].
         cbn beta. intros w rnr (w1 & l & w' & -> & (Hne & ws & -> & HF) & -> & ->).
         apply told_lines in HF. cbn [fst snd]. split; [right; exact Hne|]. split; [constructor|]. split; [apply HF|].
         rewrite app_nil_r. apply HF. }
  cbn beta. intros w b (w1 & q & w' & -> & (Hq & Tq) & w2 & [rs ch] & w3 & -> & (Hne & Hr & Hc & Ht) & -> & ->).
  cbn [fst snd] in *. rewrite app_nil_r. rewrite Forall_forall in Hc. split.
  - apply every_block_cons. split.
    + split; [exact Hne|]. split; [exact Hr|]. split; [|exact Hq]. apply Forall_forall. intros nr Hin. apply Hc. exact Hin.
    + intros seg child Hin. apply (Hc _ Hin).
  - cbn [routes_words]. apply told_app; assumption.
Qed.
Lemma reads_nested routes level : reads (routes (S level)) Qroutes -> reads (nested_body_p ualnum routes level) Qnested.
Proof.
  intros Hr. unfold nested_body_p. eapply reads_weaken; [|eapply reads_bind; [apply reads_segment|intros ? ?; eapply reads_bind;
    [apply reads_endings|intros ? ?; eapply reads_bind; [apply reads_error, Hr|intros ? ?; apply reads_ret]]]].
  cbn beta. intros w nr (w1 & seg & w' & -> & (H1 & H2 & H3) & w2 & ? & w'' & -> & Hnl & w3 & b & w4 & -> & (Hb & Tb) & -> & ->).
  split; [destruct w1; [congruence|discriminate]|]. split; [split; assumption|]. cbn [nested_words].
  apply told_app; [exact H3|]. apply told_before; [apply newlines_spaces; exact Hnl|]. rewrite app_nil_r. exact Tb.
Qed.
Lemma reads_routes : forall fuel level, reads (routes_p ualnum fuel level) Qroutes.
Proof.
  induction fuel as [|fuel IH]; intros level i r a H; [discriminate|].
  cbn [routes_p] in H. revert i r a H. apply reads_body, reads_nested, IH.
Qed.
Lemma safe_routes : forall n level, safe n (routes_p ualnum (S n) level).
Proof.
  induction n as [|n IH]; intros level.
  - intros i Hi. cbn [routes_p]. revert i Hi. apply (safe_body 0 (nested_body_p ualnum (routes_p ualnum 0)) level).
    (* on the empty input no segment is found *)
    intros [|x i] Hi; [|simpl in Hi; lia].
    assert (Hs : path_segment_p ualnum level [] = PErr).
    { unfold path_segment_p, pbind, indent_p. destruct level; reflexivity. }
    unfold nested_body_p, pbind. rewrite Hs. split; [discriminate|discriminate].
  - intros i Hi. change (routes_p ualnum (S (S n)) level i) with
      (routes_body_p ualnum (nested_body_p ualnum (routes_p ualnum (S n))) level i).
    revert i Hi. apply (safe_body (S n) (nested_body_p ualnum (routes_p ualnum (S n))) level).
    unfold nested_body_p. apply safe_bind_eats.
    + apply safe_segment.
    + eapply eats_reads; [apply reads_segment|]. intros w a [H _]. exact H.
    + intros seg. apply safe_bind; [apply safe_many1, safe_line_ending|]. intros _.
      apply safe_bind; [apply safe_error, IH|]. intros b. apply safe_ret.
Qed.
Lemma safe_eof n : safe n eof.
Proof. intros [|x i] _; (split; [discriminate|]); [|discriminate]. intros r a [= <- <-]. exists []. reflexivity. Qed.
Definition config_body (fuel : nat) : parser RouteConfig :=
  do headers <- many0 header_p;
  do _u <- many0 line_ending;
  pchar c_slash ;;
  do _u <- many1 line_ending;
  do r <- routes_p ualnum fuel 1;
  eof ;;
  pret (mkConfig (retain_headers headers) r).
Lemma route_config_body i : route_config_p ualnum i = config_body (S (length i)) i.
Proof. reflexivity. Qed.
Lemma safe_config n : safe n (config_body (S n)).
Proof.
  unfold config_body. apply safe_bind; [apply safe_many0, safe_header|]. intros h.
  apply safe_bind; [apply safe_many0, safe_line_ending|]. intros _. apply safe_bind; [apply safe_char|]. intros _.
  apply safe_bind; [apply safe_many1, safe_line_ending|]. intros _. apply safe_bind; [apply safe_routes|]. intros b.
  apply safe_bind; [apply safe_eof|]. intros _. apply safe_ret.
Qed.
Lemma parse_total i : route_config_p ualnum i <> PFuel.
Proof. rewrite route_config_body. apply (safe_config (length i) i). lia. Qed.

(** ** The whole file *)
Lemma reads_header : reads header_p (fun w h => wf_line (h_text h) /\ told [word (h_text h)] w).
Proof.
  intros i r a H. rewrite header_eq in H. revert i r a H.
  eapply reads_weaken; [|eapply reads_bind; [apply reads_header_text|intros ? ?; eapply reads_bind;
    [apply reads_endings|intros ? ?; apply reads_ret]]].
  cbn beta. intros w h (w1 & t & w' & -> & (-> & Ht) & w2 & ? & w3 & -> & Hn & -> & ->). split; [exact Ht|].
  rewrite app_nil_r. apply told_after_newlines; [apply told_word|exact Hn].
Qed.
Lemma reads_eof : reads eof (fun w _ => w = []).
Proof. intros [|x i] r a H; [|discriminate]. injection H as <- _. exists []. auto. Qed.
Lemma told_headers ws l : Forall2 (fun w h => wf_line (h_text h) /\ told [word (h_text h)] w) ws l ->
  Forall wf_header (retain_headers l) /\ told (map (fun h => word (h_text h)) (retain_headers l)) (concat ws).
Proof.
  induction 1 as [|w h ws l [(H1 & H2 & H3) Ht] _ [IH1 IH2]]; [split; [constructor|apply told_nil]|].
  unfold retain_headers in *. cbn [filter concat]. destruct (Nat.eqb_spec (length (h_text h)) 0) as [E|E]; cbn [negb].
  - split; [exact IH1|]. apply (told_app []); [|exact IH2]. apply length_zero_iff_nil in E. rewrite E in Ht.
    destruct Ht as (ps & Hp & HF). inversion HF as [|? ? ? ? Hs HF']; subst. inversion HF'; subst. exists [].
    rewrite Hp, Hs. split; [reflexivity|constructor].
  - split.
    + constructor; [|exact IH1]. split; [intros E2; rewrite E2 in E; apply E; reflexivity|]. auto.
    + cbn [map]. apply told_cons; assumption.
Qed.
Lemma parse_reads i r c : route_config_p ualnum i = POk r c ->
  r = [] /\ wf_config ualnum c /\ told (config_words c) i.
Proof.
  rewrite route_config_body. intros H.
  assert (Hr : r = []).
  { revert H. unfold config_body, pbind. destruct (many0 header_p i) as [i1 h| | |]; try discriminate.
    destruct (many0 line_ending i1) as [i2 l| | |]; try discriminate.
    destruct (pchar c_slash i2) as [i3 ?| | |]; try discriminate.
    destruct (many1 line_ending i3) as [i4 ?| | |]; try discriminate.
    destruct (routes_p ualnum (S (length i)) 1 i4) as [[|? ?] ?| | |]; try discriminate. intros [= <- _]. reflexivity. }
  split; [exact Hr|].
  assert (Hreads : reads (config_body (S (length i))) (fun w c => wf_config ualnum c /\ told (config_words c) w)).
  { clear. unfold config_body. eapply reads_weaken; [|eapply reads_bind; [apply reads_many0, reads_header|intros ? ?;
      eapply reads_bind; [apply reads_endings0|intros ? ?; eapply reads_bind; [apply reads_char|intros ? ?;
      eapply reads_bind; [apply reads_endings|intros ? ?; eapply reads_bind; [apply reads_routes|intros ? ?;
      eapply reads_bind; [apply reads_eof|intros ? ?; apply reads_ret]]]]]]].
    cbn beta. intros w c (w1 & h & w1' & -> & (ws & -> & HF) & w2 & ? & w2' & -> & Hs & w3 & ? & w3' & -> & ->
      & w4 & ? & w4' & -> & Hn & w5 & b & w5' & -> & (Hb & Tb) & w6 & ? & w7 & -> & -> & -> & ->).
    destruct (told_headers _ _ HF) as [Hh Th]. split; [split; assumption|]. unfold config_words. cbn [c_headers c_routes].
    apply told_app; [exact Th|]. apply told_before; [exact Hs|]. apply told_cons; [apply told_word|].
    apply told_before; [apply newlines_spaces; exact Hn|]. rewrite app_nil_r. exact Tb. }
  destruct (Hreads _ _ _ H) as (w & -> & Hc). rewrite Hr, app_nil_r. exact Hc.
Qed.
End Parse.
