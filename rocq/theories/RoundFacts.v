(** * RoundFacts: printing a configuration and reading it again *)
From Verif Require Import Base Core Nom Parse Spec SpecMatch SpecParse BaseFacts TrieFacts NodeFacts MatchFacts ParseFacts RelineFacts.

Notation ind k := (concat (repeat (lit "  ") k)).

Lemma indent_ind level : level <= 7 -> indent level = ind level.
Proof. intros H. do 8 (destruct level as [|level]; [reflexivity|]). lia. Qed.
Lemma indent_ok level s : indent_p level (ind level ++ s) = POk s tt.
Proof.
  unfold indent_p. induction level as [|level IH]; [reflexivity|]. cbn [repeat concat pcount].
  rewrite <- app_assoc. unfold pbind at 1. unfold tag at 1.
  change (is_prefix (lit "  ") (lit "  " ++ (ind level ++ s))) with true. cbn iota. exact IH.
Qed.
Lemma indent_short level k c t : k < level -> is_sp c = false -> indent_p level (ind k ++ c :: t) = PErr.
Proof.
  unfold indent_p. revert k. induction level as [|level IH]; intros k Hk Hc; [lia|]. cbn [pcount].
  unfold pbind at 1. destruct k as [|k].
  - cbn [repeat concat app]. unfold tag. cbn [lit is_prefix].
    destruct (N.eqb_spec (N_of_ascii " ") c) as [<-|_]; [discriminate|reflexivity].
  - cbn [repeat concat]. rewrite <- app_assoc. unfold tag at 1.
    change (is_prefix (lit "  ") (lit "  " ++ (ind k ++ c :: t))) with true. cbn iota.
    apply IH; [lia|exact Hc].
Qed.
Lemma indent_nil level : level > 0 -> indent_p level [] = PErr.
Proof. destruct level; [lia|reflexivity]. Qed.

(** What may follow a block of level [n]: the end or a less indented line. *)
Definition before (n : nat) (tail : str) : Prop :=
  tail = [] \/ exists k c t, k < n /\ tail = ind k ++ c :: t /\ is_sp c = false /\ c <> c_colon.
Lemma before_mono n m tail : n <= m -> before n tail -> before m tail.
Proof. intros H [->|(k & c & t & Hk & -> & Hc)]; [left; reflexivity|]. right. exists k, c, t. repeat split; try lia; apply Hc. Qed.
Lemma before_indent n tail : n > 0 -> before n tail -> indent_p n tail = PErr.
Proof.
  intros Hn [->|(k & c & t & Hk & -> & Hc & _)]; [apply indent_nil; exact Hn|]. apply indent_short; assumption.
Qed.
Lemma before_ending n tail : before n tail -> line_ending tail = PErr.
Proof.
  intros [->|(k & c & t & Hk & -> & Hc & _)]; [reflexivity|]. destruct k as [|k]; [|reflexivity].
  cbn [repeat concat app line_ending]. destruct (N.eqb_spec c c_nl) as [->|_]; [discriminate|].
  destruct (N.eqb_spec c c_cr) as [->|_]; [discriminate|reflexivity].
Qed.
Lemma endings_ok n tail : before n tail -> exists l, many1 line_ending (c_nl :: tail) = POk tail l.
Proof.
  intros H. destruct (endings1_skip (c_nl :: tail)) as [l Hl]; [discriminate|]. exists l. rewrite Hl.
  cbn [skip]. rewrite N.eqb_refl. rewrite no_ending_skip; [reflexivity|]. eapply before_ending; eauto.
Qed.
Lemma newline_ok n tail : before n tail -> require_newline (c_nl :: tail) = POk tail tt.
Proof.
  intros H. destruct (endings_ok n tail H) as [l Hl]. unfold require_newline, return_error, pbind. rewrite Hl. reflexivity.
Qed.
Lemma endings0_ok n tail : before n tail -> exists l, many0 line_ending tail = POk tail l.
Proof.
  intros H. destruct (endings0_skip tail) as [l Hl]. exists l. rewrite Hl, no_ending_skip; [reflexivity|].
  eapply before_ending; eauto.
Qed.
(** No [::] in the next line. *)
Lemma ws_colons n tail : before n tail -> ws (tag (lit "::")) (c_nl :: tail) = PErr.
Proof.
  intros H. unfold ws, pbind, sp.
  assert (E : tag (lit "::") (snd (span is_sp (c_nl :: tail))) = PErr); [|rewrite E; reflexivity].
  change (c_nl :: tail) with ([c_nl] ++ tail). rewrite span_spaces by (repeat constructor).
  destruct H as [->|(k & c & t & Hk & -> & Hc & Hn)]; [reflexivity|].
  rewrite span_spaces by apply indent_spaces. cbn [span]. rewrite Hc. cbn [snd]. unfold tag. cbn [lit is_prefix].
  destruct (N.eqb_spec (N_of_ascii ":") c) as [<-|_]; [exfalso; apply Hn; reflexivity|reflexivity].
Qed.

Section Parse.
Variable ualnum : char -> bool.
Notation is_ident := (is_identifier_char ualnum).

Lemma ident_not c : is_ident c = true ->
  is_sp c = false /\ c <> c_colon /\ c <> c_lbrack /\ c <> c_lbrace /\ c <> c_space /\ c <> 45%N.
Proof.
  intros H.
  assert (Hne : forall d, is_ident d = false -> c <> d) by (intros d Hd ->; congruence).
  split.
  - unfold is_sp. rewrite !orb_false_iff. repeat split; apply N.eqb_neq, Hne; reflexivity.
  - repeat split; apply Hne; reflexivity.
Qed.
Lemma span_stop f a b : Forall (fun c => f c = true) a -> (forall c, hd_error b = Some c -> f c = false) ->
  span f (a ++ b) = (a, b).
Proof.
  intros Ha Hb. induction Ha as [|c a Hc _ IH].
  - destruct b as [|c b]; [reflexivity|]. cbn [app span]. rewrite (Hb c eq_refl). reflexivity.
  - cbn [app span]. rewrite Hc, IH. reflexivity.
Qed.
Lemma ident_ok s b : ident ualnum s -> (forall c, hd_error b = Some c -> is_ident c = false) ->
  take_while1 is_ident (s ++ b) = POk b s.
Proof.
  intros Hs Hb. apply ident_iff in Hs. destruct Hs as [Hn Hf]. unfold take_while1. rewrite span_stop by assumption.
  destruct s; [congruence|reflexivity].
Qed.
Lemma ident_head s : ident ualnum s -> exists c s', s = c :: s' /\ is_ident c = true.
Proof.
  intros Hs. apply ident_iff in Hs. destruct Hs as [Hn Hf]. destruct s as [|c s]; [congruence|].
  inversion Hf; subst. eauto.
Qed.
Lemma sp_stop c s : is_sp c = false -> sp (c :: s) = POk (c :: s) tt.
Proof. intros H. unfold sp. cbn [span]. rewrite H. reflexivity. Qed.
Lemma sp_space c s : is_sp c = false -> sp (c_space :: c :: s) = POk (c :: s) tt.
Proof. intros H. unfold sp. cbn [span]. change (is_sp c_space) with true. cbn iota. rewrite H. reflexivity. Qed.
Lemma ws_at {A} (p : parser A) c s r a : is_sp c = false -> p (c :: s) = POk r a -> (forall d, hd_error r = Some d -> is_sp d = false) ->
  ws p (c :: s) = POk r a.
Proof.
  intros Hc Hp Hr. unfold ws, pbind at 1. rewrite sp_stop by exact Hc. unfold pbind at 1. rewrite Hp.
  unfold pbind. destruct r as [|d r]; [reflexivity|]. rewrite sp_stop by (apply Hr; reflexivity). reflexivity.
Qed.

Lemma param_ok p s : wf_param ualnum p -> (forall c, hd_error s = Some c -> is_ident c = false) ->
  param_p ualnum (param_display p ++ s) = POk s p.
Proof.
  intros [Hn Ht] Hs. unfold param_p, param_display. rewrite <- !app_assoc.
  unfold pbind at 1. rewrite ident_ok by (auto; cbn; intros c [= <-]; reflexivity).
  unfold pbind at 1.
  assert (Hw : ws colon_p (lit ": " ++ p_typ p ++ s) = POk (p_typ p ++ s) tt).
  { destruct (ident_head _ Ht) as (c & t & E & Hc). rewrite E. unfold ws, pbind at 1.
    change (lit ": " ++ (c :: t) ++ s) with (c_colon :: c_space :: c :: t ++ s).
    rewrite sp_stop by reflexivity. unfold pbind at 1. unfold colon_p, return_error, tag.
    change (is_prefix (lit ":") (c_colon :: c_space :: c :: t ++ s)) with true. cbn [length lit skipn].
    unfold pbind. rewrite sp_space by (apply ident_not; exact Hc). reflexivity. }
  rewrite Hw. unfold pbind. rewrite ident_ok by assumption. destruct p. reflexivity.
Qed.
Lemma display_head p s : wf_param ualnum p -> exists c t, param_display p ++ s = c :: t /\ is_ident c = true.
Proof.
  intros [Hn _]. destruct (ident_head _ Hn) as (c & t & E & Hc). unfold param_display. rewrite E. cbn [app]. eauto.
Qed.
Lemma bracket_ok {B} l r (f : Param -> B) p s : wf_param ualnum p -> is_ident r = false -> is_sp r = false ->
  (pchar l ;; do param <- ws (param_p ualnum); return_error (pchar r) ;; pret (f param)) (l :: param_display p ++ r :: s)
  = POk s (f p).
Proof.
  intros Hp Hr Hsp. unfold pbind at 1. cbn [pchar]. rewrite N.eqb_refl.
  destruct (display_head p (r :: s) Hp) as (c & t & E & Hc).
  unfold pbind at 1. rewrite E. rewrite (ws_at _ c t (r :: s) p).
  - unfold pbind, return_error. cbn [pchar]. rewrite N.eqb_refl. reflexivity.
  - apply ident_not. exact Hc.
  - rewrite <- E. apply param_ok; [exact Hp|]. cbn. intros d [= <-]. exact Hr.
  - cbn. intros d [= <-]. exact Hsp.
Qed.
Lemma query_ok level p s : wf_param ualnum p ->
  query_parameter_p ualnum level (ind level ++ lit "[" ++ param_display p ++ lit "]" ++ s) = POk s p.
Proof.
  intros Hp. unfold query_parameter_p. unfold pbind at 1. rewrite indent_ok.
  change (lit "[" ++ param_display p ++ lit "]" ++ s) with (c_lbrack :: param_display p ++ c_rbrack :: s).
  apply (bracket_ok c_lbrack c_rbrack (fun p => p)); [exact Hp|reflexivity|reflexivity].
Qed.
Lemma query_short level tail : level > 0 -> before level tail -> query_parameter_p ualnum level tail = PErr.
Proof. intros Hl H. unfold query_parameter_p, pbind. rewrite before_indent by assumption. reflexivity. Qed.
Lemma query_other level c t : c <> c_lbrack -> query_parameter_p ualnum level (ind level ++ c :: t) = PErr.
Proof.
  intros Hc. unfold query_parameter_p. unfold pbind at 1. rewrite indent_ok. unfold pbind. cbn [pchar].
  apply N.eqb_neq in Hc. rewrite Hc. reflexivity.
Qed.

(** ** Lists *)
Lemma many_aux_print {A} (p : parser A) (pr : A -> str) tail xs :
  (forall zs x ys, xs = zs ++ x :: ys ->
     p (pr x ++ concat (map pr ys) ++ tail) = POk (concat (map pr ys) ++ tail) x /\ pr x <> []) ->
  p tail = PErr ->
  forall n, length (concat (map pr xs) ++ tail) < n -> many0_aux n p (concat (map pr xs) ++ tail) = POk tail xs.
Proof.
  intros Hx Ht. induction xs as [|x xs IH]; intros n Hn; (destruct n as [|n]; [lia|]); cbn [many0_aux].
  - cbn [map concat app]. rewrite Ht. reflexivity.
  - cbn [map concat] in *. rewrite <- app_assoc in *. destruct (Hx [] x xs eq_refl) as [H1 H2]. rewrite H1.
    destruct (str_eqb_spec (concat (map pr xs) ++ tail) (pr x ++ concat (map pr xs) ++ tail)) as [E|_].
    { apply app_self in E. congruence. }
    rewrite IH; [reflexivity| |].
    + intros zs y ys ->. apply (Hx (x :: zs)). reflexivity.
    + rewrite app_length in Hn. destruct (pr x); [congruence|simpl in Hn; lia].
Qed.
Lemma many0_print {A} (p : parser A) (pr : A -> str) tail xs :
  (forall zs x ys, xs = zs ++ x :: ys ->
     p (pr x ++ concat (map pr ys) ++ tail) = POk (concat (map pr ys) ++ tail) x /\ pr x <> []) ->
  p tail = PErr -> many0 p (concat (map pr xs) ++ tail) = POk tail xs.
Proof. intros Hx Ht. unfold many0. apply many_aux_print; auto. Qed.
Lemma many1_print {A} (p : parser A) (pr : A -> str) tail xs :
  (forall zs x ys, xs = zs ++ x :: ys ->
     p (pr x ++ concat (map pr ys) ++ tail) = POk (concat (map pr ys) ++ tail) x /\ pr x <> []) ->
  p tail = PErr -> xs <> [] -> many1 p (concat (map pr xs) ++ tail) = POk tail xs.
Proof.
  intros Hx Ht Hn. destruct xs as [|x xs]; [congruence|]. cbn [map concat]. rewrite <- app_assoc.
  unfold many1, pbind at 1. rewrite (proj1 (Hx [] x xs eq_refl)). unfold pbind. rewrite many0_print; [reflexivity| |exact Ht].
  intros zs y ys ->. apply (Hx (x :: zs)). reflexivity.
Qed.
(** A list of lines of level [k] before a line. *)
Definition line_at (k : nat) (s : str) : Prop := exists c t, s = ind k ++ c :: t /\ is_sp c = false /\ c <> c_colon.
Lemma before_line n k s rest : k < n -> line_at k s -> before n (s ++ rest).
Proof.
  intros Hk (c & t & -> & Hc). right. exists k, c, (t ++ rest). rewrite <- app_assoc. auto.
Qed.
Lemma before_lines {A} (pr : A -> str) n k ys tail : k < n -> (forall y, In y ys -> line_at k (pr y)) -> before n tail ->
  before n (concat (map pr ys) ++ tail).
Proof.
  intros Hk Hy Ht. destruct ys as [|y ys]; [exact Ht|]. cbn [map concat]. rewrite <- app_assoc.
  eapply before_line; [exact Hk|]. apply Hy. left. reflexivity.
Qed.
Lemma ind_line_ne k c t : ind k ++ c :: t <> [].
Proof. intros E. apply app_eq_nil in E. destruct E. discriminate. Qed.
Lemma line_at_ne k s : line_at k s -> s <> [].
Proof. intros (c & t & -> & _). apply ind_line_ne. Qed.

(** ** Resources *)
Definition query_line (level : nat) (p : Param) : str := ind level ++ lit "[" ++ param_display p ++ lit "]" ++ [c_nl].
Lemma query_line_at level p : line_at level (query_line level p).
Proof. exists c_lbrack, (param_display p ++ lit "]" ++ [c_nl]). repeat split; discriminate. Qed.
Lemma queries_ok {B} level (e : parser B) qs tail : (forall n tl, before n tl -> exists b, e (c_nl :: tl) = POk tl b) ->
  Forall (wf_param ualnum) qs -> before (S level) tail ->
  query_parameter_p ualnum level tail = PErr ->
  many0 (do q <- query_parameter_p ualnum level; e ;; pret q) (concat (map (query_line level) qs) ++ tail) = POk tail qs.
Proof.
  intros He Hq Hb Ht. apply many0_print.
  - intros zs q ys ->. rewrite Forall_app in Hq. destruct Hq as [_ Hq]. inversion Hq as [|? ? Hq1 Hq2]; subst.
    split; [|apply (line_at_ne level), query_line_at].
    unfold query_line at 1. rewrite <- !app_assoc. unfold pbind at 1. rewrite query_ok by exact Hq1.
    unfold pbind. cbn [app].
    destruct (He (S level) (concat (map (query_line level) ys) ++ tail)) as [b Eb]; [|rewrite Eb; reflexivity].
    apply (before_lines _ _ level); [lia|intros; apply query_line_at|exact Hb].
  - unfold pbind. rewrite Ht. reflexivity.
Qed.
Lemma target_ok n redirect modules name tail : Forall (ident ualnum) modules -> ident ualnum name -> before n tail ->
  target_p ualnum ((if redirect : bool then lit "-> " else []) ++ concat (map (fun m => m ++ lit "::") modules) ++ name ++ c_nl :: tail)
  = POk (c_nl :: tail) (redirect, modules, name).
Proof.
  intros Hm Hn Hb.
  set (body := concat (map (fun m => m ++ lit "::") modules) ++ name ++ c_nl :: tail).
  assert (Hbody : exists c t, body = c :: t /\ is_ident c = true).
  { unfold body. destruct modules as [|m ms].
    - destruct (ident_head _ Hn) as (c & t & -> & Hc). cbn [map concat app]. eauto.
    - inversion Hm as [|? ? H1 _]; subst. destruct (ident_head _ H1) as (c & t & -> & Hc). cbn [map concat app]. eauto. }
  assert (Hrest : forall (b : bool), (do modules <- modules_p ualnum; do action <- take_while1 is_ident; pret (b, modules, action)) body
            = POk (c_nl :: tail) (b, modules, name)).
  { intros b. unfold pbind at 1. unfold modules_p, body. rewrite many0_print.
    - unfold pbind. rewrite ident_ok; [reflexivity|exact Hn|]. cbn. intros c [= <-]. reflexivity.
    - intros zs m ys ->. rewrite Forall_app in Hm. destruct Hm as [_ Hm]. inversion Hm as [|? ? H1 H2]; subst.
      split.
      2: { intros E. apply app_eq_nil in E. destruct E. discriminate. }
      rewrite <- app_assoc. unfold pbind at 1.
      rewrite ident_ok by (auto; cbn; intros c [= <-]; reflexivity).
      unfold pbind.
      set (u := concat (map (fun m => m ++ lit "::") ys) ++ name ++ c_nl :: tail).
      change (lit "::" ++ u) with (c_colon :: c_colon :: u).
      rewrite (ws_at _ c_colon (c_colon :: u) u tt); [reflexivity|reflexivity|reflexivity|].
      intros d Hd. apply ident_not. unfold u in Hd. destruct ys as [|y ys].
      + destruct (ident_head _ Hn) as (c & t & E & Hc). rewrite E in Hd. cbn in Hd. congruence.
      + inversion H2 as [|? ? Hy _]; subst. destruct (ident_head _ Hy) as (c & t & E & Hc). rewrite E in Hd. cbn in Hd. congruence.
    - unfold pbind at 1. rewrite ident_ok; [|exact Hn|cbn; intros c [= <-]; reflexivity].
      unfold pbind. rewrite (ws_colons n tail Hb). reflexivity. }
  destruct Hbody as (c & t & E & Hc). unfold target_p, alt. destruct redirect.
  - unfold pbind at 1.
    assert (Hw : ws (tag (lit "->")) (lit "-> " ++ body) = POk body tt).
    { unfold ws, pbind at 1. change (lit "-> " ++ body) with (45%N :: 62%N :: c_space :: body).
      rewrite sp_stop by reflexivity. unfold pbind at 1. unfold tag.
      change (is_prefix (lit "->") (45%N :: 62%N :: c_space :: body)) with true. cbn [lit length skipn].
      unfold pbind. rewrite E, sp_space by (apply ident_not; exact Hc). reflexivity. }
    rewrite Hw, Hrest. reflexivity.
  - cbn [app]. unfold pbind at 1.
    assert (Hw : ws (tag (lit "->")) body = PErr).
    { rewrite E. unfold ws, pbind at 1. rewrite sp_stop by (apply ident_not; exact Hc). unfold pbind, tag. cbn [lit is_prefix].
      destruct (N.eqb_spec (N_of_ascii "-") c) as [<-|_]; [discriminate|reflexivity]. }
    rewrite Hw, Hrest. reflexivity.
Qed.
Definition resource_line (level : nat) (r : Resource) : str :=
  ind level ++ method_display (r_method r) ++ c_space :: (if r_is_redirect r then lit "-> " else [])
    ++ concat (map (fun m => m ++ lit "::") (r_modules r)) ++ r_name r
    ++ c_nl :: concat (map (query_line (S level)) (r_query r)).
Lemma resource_line_at level r : line_at level (resource_line level r).
Proof.
  unfold resource_line. destruct (r_method r); eexists; eexists; (split; [reflexivity|]); split; discriminate || reflexivity.
Qed.
Lemma nl_shift {A} (f : A -> str) l : concat (map (fun p => [c_nl] ++ f p) l) ++ [c_nl] = c_nl :: concat (map (fun p => f p ++ [c_nl]) l).
Proof.
  induction l as [|x l IH]; [reflexivity|]. cbn [map concat]. rewrite <- app_assoc, IH. rewrite <- !app_assoc. reflexivity.
Qed.
Lemma resource_stringify_line level r : level <= 7 -> (r_query r <> [] -> S level <= 7) ->
  resource_stringify level r = resource_line level r.
Proof.
  intros Hl Hq. unfold resource_stringify, resource_line. rewrite indent_ind by exact Hl.
  rewrite !(app_assoc _ _ [c_nl]).
  assert (E : concat (map (fun p => [c_nl] ++ indent (S level) ++ lit "[" ++ param_display p ++ lit "]") (r_query r)) ++ [c_nl]
            = c_nl :: concat (map (query_line (S level)) (r_query r))).
  { rewrite nl_shift. f_equal. f_equal. apply map_ext_in. intros p Hp. unfold query_line.
    rewrite indent_ind by (apply Hq; intros E; rewrite E in Hp; destruct Hp). rewrite <- !app_assoc. reflexivity. }
  rewrite <- !(app_assoc _ _ [c_nl]), E. destruct (r_is_redirect r); reflexivity.
Qed.
Lemma method_ok m s : method_p (method_display m ++ c_space :: s) = POk (c_space :: s) m.
Proof. destruct m; reflexivity. Qed.
Lemma resource_ok level r tail : wf_resource ualnum r -> before (S level) tail ->
  resource_p ualnum level (resource_line level r ++ tail) = POk tail r.
Proof.
  intros (Hm & Hn & Hq) Hb. unfold resource_p, resource_line.
  assert (Hb2 : before (S (S level)) (concat (map (query_line (S level)) (r_query r)) ++ tail)).
  { apply (before_lines _ _ (S level)); [lia|intros; apply query_line_at|]. eapply before_mono; [|exact Hb]. lia. }
  replace ((ind level ++ method_display (r_method r) ++ c_space :: (if r_is_redirect r then lit "-> " else [])
            ++ concat (map (fun m => m ++ lit "::") (r_modules r)) ++ r_name r
            ++ c_nl :: concat (map (query_line (S level)) (r_query r))) ++ tail)
    with (ind level ++ method_display (r_method r) ++ c_space :: (if r_is_redirect r then lit "-> " else [])
            ++ concat (map (fun m => m ++ lit "::") (r_modules r)) ++ r_name r
            ++ c_nl :: (concat (map (query_line (S level)) (r_query r)) ++ tail)).
  2: { rewrite <- !app_assoc. cbn [app]. rewrite <- !app_assoc. reflexivity. }
  set (rest := concat (map (query_line (S level)) (r_query r)) ++ tail) in *.
  unfold pbind at 1. rewrite indent_ok. unfold pbind at 1. rewrite method_ok.
  unfold pbind at 1. cbn [pchar]. rewrite N.eqb_refl. unfold pbind at 1.
  rewrite (target_ok (S (S level))) by assumption. unfold pbind at 1. rewrite (newline_ok (S (S level))) by exact Hb2.
  unfold pbind. unfold rest. rewrite (queries_ok (S level) require_newline).
  - destruct r. reflexivity.
  - intros n tl Htl. exists tt. apply (newline_ok n tl Htl).
  - exact Hq.
  - eapply before_mono; [|exact Hb]. lia.
  - apply query_short; [lia|exact Hb].
Qed.
Lemma resource_short level tail : level > 0 -> before level tail -> resource_p ualnum level tail = PErr.
Proof. intros Hl H. unfold resource_p, pbind. rewrite before_indent by assumption. reflexivity. Qed.

(** ** Nested routes *)
Definition segment_line (level : nat) (s : PathSegment) : str := ind level ++ segment_stringify s ++ [c_nl].
Lemma segment_head s u : wf_segment ualnum s ->
  exists c t, segment_stringify s ++ u = c :: t /\ is_sp c = false /\ c <> c_colon /\ c <> c_lbrack.
Proof.
  intros Hs. destruct s as [t|p].
  - destruct (ident_head _ Hs) as (c & t' & -> & Hc). cbn [segment_stringify app].
    pose proof (ident_not c Hc). eexists. eexists. split; [reflexivity|]. tauto.
  - eexists. eexists. split; [reflexivity|]. repeat split; discriminate.
Qed.
Lemma method_cases i : (exists r m, method_p i = POk r m) \/ method_p i = PErr.
Proof.
  unfold method_p, alt, pbind, tag_no_case, pret.
  destruct (is_prefix_no_case (lit "get") i); [eauto|]. destruct (is_prefix_no_case (lit "post") i); [eauto|].
  destruct (is_prefix_no_case (lit "put") i); [eauto|]. destruct (is_prefix_no_case (lit "delete") i); eauto.
Qed.
(** The line of a segment is not a resource. *)
Lemma resource_not_segment level s u : wf_segment ualnum s ->
  resource_p ualnum level (segment_line level s ++ u) = PErr.
Proof.
  intros Hs. unfold resource_p, segment_line. rewrite <- app_assoc. unfold pbind at 1. rewrite indent_ok.
  rewrite <- app_assoc. destruct s as [t|p]; [|reflexivity].
  cbn [segment_stringify app]. unfold pbind at 1. destruct (method_cases (t ++ c_nl :: u)) as [(r & m & E)|E]; rewrite E; [|reflexivity].
  apply reads_method in E. destruct E as (w & Ew & Hw).
  assert (Hsp : pchar c_space r = PErr); [|unfold pbind; rewrite Hsp; reflexivity].
  assert (Hnl : ~ In c_nl w).
  { intros Hin. apply (in_map to_lower) in Hin. unfold Qmethod in Hw. rewrite Hw in Hin. destruct m; vm_compute in Hin; intuition discriminate. }
  apply ident_iff in Hs. destruct Hs as [_ Hf].
  clear Hw. revert w Ew Hnl. induction Hf as [|c t Hc _ IH]; intros w Ew Hnl.
  - destruct w as [|d w].
    + cbn [app] in Ew. subst r. reflexivity.
    + injection Ew as <- _. exfalso. apply Hnl. left. reflexivity.
  - destruct w as [|d w].
    + cbn [app] in Ew. subst r. cbn [pchar]. destruct (N.eqb_spec c c_space) as [->|_]; [discriminate|reflexivity].
    + injection Ew as <- Ew. apply (IH w Ew). intros Hin. apply Hnl. right. exact Hin.
Qed.
Lemma segment_ok level s u : wf_segment ualnum s ->
  path_segment_p ualnum level (segment_line level s ++ u) = POk (c_nl :: u) s.
Proof.
  intros Hs. unfold path_segment_p, segment_line. rewrite <- app_assoc. unfold pbind at 1. rewrite indent_ok.
  rewrite <- app_assoc. unfold alt. destruct s as [t|p].
  - destruct (ident_head _ Hs) as (c & t' & E & Hc). cbn [segment_stringify].
    assert (Hch : pchar c_lbrace (t ++ [c_nl] ++ u) = PErr).
    { rewrite E. cbn [app pchar]. destruct (N.eqb_spec c c_lbrace) as [->|_]; [discriminate|reflexivity]. }
    unfold pbind at 1. rewrite Hch. unfold pbind. rewrite ident_ok; [reflexivity|exact Hs|].
    cbn. intros d [= <-]. reflexivity.
  - replace (segment_stringify (Dynamic p) ++ [c_nl] ++ u) with (c_lbrace :: param_display p ++ c_rbrace :: c_nl :: u).
    2: { cbn [segment_stringify]. rewrite <- !app_assoc. reflexivity. }
    rewrite (bracket_ok c_lbrace c_rbrace Dynamic p (c_nl :: u)); [reflexivity|exact Hs|reflexivity|reflexivity].
Qed.
Lemma segment_short level tail : level > 0 -> before level tail -> path_segment_p ualnum level tail = PErr.
Proof. intros Hl H. unfold path_segment_p, pbind. rewrite before_indent by assumption. reflexivity. Qed.
Definition nested_line (level : nat) (nr : NestedRoutes) : str :=
  segment_line level (fst nr) ++ routes_stringify (S level) (snd nr).
Lemma nested_line_at level nr : wf_segment ualnum (fst nr) -> line_at level (nested_line level nr).
Proof.
  intros H. unfold nested_line, segment_line.
  destruct (segment_head (fst nr) ([c_nl] ++ routes_stringify (S level) (snd nr)) H) as (c & t & E & H1 & H2 & _).
  exists c, t. rewrite <- !app_assoc, E. auto.
Qed.

(** ** Blocks *)
Definition fits (level : nat) (b : Routes) : Prop :=
  forall p q x, block_at b p q x ->
    level + length p <= 7 /\ (forall r, In r (rt_resources x) -> r_query r <> [] -> S (level + length p) <= 7).
Lemma fits_child level rs ch q seg child : fits level (mkRoutes rs ch q) -> In (seg, child) ch -> fits (S level) child.
Proof.
  intros H Hin p q' x Hx. destruct (H (seg :: p) (q ++ q') x) as [H1 H2].
  - apply (block_step (mkRoutes rs ch q)) with child; assumption.
  - simpl in *. split; [lia|]. intros r Hr Hq. specialize (H2 r Hr Hq). lia.
Qed.
Lemma routes_stringify_lines level rs ch q : fits level (mkRoutes rs ch q) ->
  routes_stringify level (mkRoutes rs ch q) =
  concat (map (query_line level) q) ++ concat (map (resource_line level) rs) ++ concat (map (nested_line level) ch).
Proof.
  intros H. destruct (H _ _ _ (block_root _)) as [Hl Hr]. cbn [rt_resources length] in *. rewrite Nat.add_0_r in *.
  cbn [routes_stringify]. f_equal; [|f_equal].
  - f_equal. apply map_ext. intros p. rewrite indent_ind by exact Hl. reflexivity.
  - f_equal. apply map_ext_in. intros r Hin. apply resource_stringify_line; [exact Hl|]. intros Hq. exact (Hr r Hin Hq).
  - f_equal. apply map_ext. intros [seg child]. unfold nested_line, segment_line. cbn [fst snd].
    rewrite indent_ind by exact Hl. rewrite <- !app_assoc. reflexivity.
Qed.
Lemma query_not_here level rs ch tail : (rs <> [] \/ ch <> []) ->
  Forall (fun nr : NestedRoutes => wf_segment ualnum (fst nr)) ch ->
  query_parameter_p ualnum level (concat (map (resource_line level) rs) ++ concat (map (nested_line level) ch) ++ tail) = PErr.
Proof.
  intros Hne Hs. destruct rs as [|r rs].
  - destruct ch as [|nr ch]; [destruct Hne; congruence|]. inversion Hs as [|? ? H1 _]; subst. cbn [map concat app].
    unfold nested_line at 1, segment_line at 1. rewrite <- !app_assoc.
    destruct (segment_head (fst nr) ([c_nl] ++ routes_stringify (S level) (snd nr) ++ concat (map (nested_line level) ch) ++ tail) H1)
      as (c & t & E & _ & _ & Hc). rewrite E. apply query_other. exact Hc.
  - cbn [map concat]. unfold resource_line at 1. rewrite <- !app_assoc. destruct (r_method r); apply query_other; discriminate.
Qed.
Lemma routes_ok : forall b level tail fuel, every_block (wf_block ualnum) b -> fits level b -> level > 0 -> before level tail ->
  length (routes_stringify level b ++ tail) < fuel ->
  routes_p ualnum fuel level (routes_stringify level b ++ tail) = POk tail b.
Proof.
  induction b as [rs ch q IH] using Routes_ind'. intros level tail fuel Hw Hf Hl Hb Hn.
  apply every_block_cons in Hw. destruct Hw as [(Hne & Hrs & Hch & Hq) Hw]. cbn [rt_resources rt_routes rt_query] in *.
  destruct fuel as [|fuel]; [lia|]. cbn [routes_p].
  rewrite routes_stringify_lines in * by exact Hf. rewrite <- !app_assoc in *.
  assert (Hsib : before (S level) tail) by (eapply before_mono; [|exact Hb]; lia).
  assert (Hline : forall nr, In nr ch -> line_at level (nested_line level nr)).
  { intros nr Hin. apply nested_line_at. rewrite Forall_forall in Hch. apply Hch. exact Hin. }
  assert (Hbc : before (S level) (concat (map (nested_line level) ch) ++ tail)).
  { apply (before_lines _ _ level); [lia|exact Hline|exact Hsib]. }
  assert (Hbr : before (S level) (concat (map (resource_line level) rs) ++ concat (map (nested_line level) ch) ++ tail)).
  { apply (before_lines _ _ level); [lia|intros; apply resource_line_at|exact Hbc]. }
  unfold routes_body_p. unfold pbind at 1. rewrite (queries_ok level (many1 line_ending)).
  2: { intros n tl Htl. destruct (endings_ok n tl Htl) as [l E]. eauto. }
  2: exact Hq.
  2: exact Hbr.
  2: apply query_not_here; assumption.
  (* the nested routes *)
  set (nested := nested_body_p ualnum (routes_p ualnum fuel) level).
  assert (Hnested : forall zs nr ys, ch = zs ++ nr :: ys ->
            nested (nested_line level nr ++ concat (map (nested_line level) ys) ++ tail)
            = POk (concat (map (nested_line level) ys) ++ tail) nr /\ nested_line level nr <> []).
  { intros zs [seg child] ys E.
    assert (Hin : In (seg, child) ch) by (rewrite E; apply in_or_app; right; left; reflexivity).
    split; [|apply (line_at_ne level), Hline; exact Hin].
    assert (Hys : forall y, In y ys -> line_at level (nested_line level y)).
    { intros y Hy. apply Hline. rewrite E. apply in_or_app. right. right. exact Hy. }
    assert (Hb2 : before (S level) (concat (map (nested_line level) ys) ++ tail)).
    { apply (before_lines _ _ level); [lia|exact Hys|exact Hsib]. }
    assert (Hfc : fits (S level) child) by (eapply fits_child; eauto).
    assert (Hwc : every_block (wf_block ualnum) child) by (eapply Hw; eauto).
    unfold nested, nested_body_p, nested_line at 1. cbn [fst snd]. rewrite <- app_assoc. unfold pbind at 1.
    rewrite segment_ok by (rewrite Forall_forall in Hch; apply (Hch _ Hin)). unfold pbind at 1.
    assert (Hb3 : before (S (S level)) (routes_stringify (S level) child ++ concat (map (nested_line level) ys) ++ tail)).
    { destruct child as [crs cch cq]. rewrite routes_stringify_lines by exact Hfc. apply every_block_cons in Hwc.
      destruct Hwc as [(_ & _ & Hwch & _) _]. cbn [rt_routes] in Hwch. rewrite Forall_forall in Hwch. rewrite <- !app_assoc.
      apply (before_lines _ _ (S level)); [lia|intros; apply query_line_at|].
      apply (before_lines _ _ (S level)); [lia|intros; apply resource_line_at|].
      apply (before_lines _ _ (S level)); [lia|intros; apply nested_line_at, Hwch; assumption|].
      eapply before_mono; [|exact Hb2]. lia. }
    destruct (endings_ok _ _ Hb3) as [l El]. rewrite El. unfold pbind, return_error.
    rewrite Forall_forall in IH. rewrite (IH _ Hin (S level)); try assumption; [reflexivity|lia|].
    rewrite E in Hn. rewrite map_app, concat_app in Hn. cbn [map concat] in Hn.
    unfold nested_line at 2 in Hn. unfold segment_line in Hn. cbn [fst snd] in Hn.
    rewrite !app_length in *. simpl in Hn. cbn [snd]. unfold NestedRoutes in *. lia. }
  assert (Hstop : nested tail = PErr).
  { unfold nested, nested_body_p, pbind. rewrite segment_short by assumption. reflexivity. }
  unfold pbind, resources_and_routes_p, return_error, alt. fold nested.
  destruct rs as [|r rs].
  - (* no resources *)
    assert (Hc : ch <> []) by (destruct Hne; congruence). cbn [map concat app].
    assert (Hres : resource_p ualnum level (concat (map (nested_line level) ch) ++ tail) = PErr).
    { destruct ch as [|[seg child] ch']; [congruence|]. inversion Hch as [|? ? H1 _]; subst. cbn [map concat].
      unfold nested_line at 1. cbn [fst snd]. rewrite <- !app_assoc. apply resource_not_segment. exact H1. }
    unfold pbind, many1 at 1, pbind. rewrite Hres. rewrite many1_print by assumption. reflexivity.
  - assert (Hm : many1 (resource_p ualnum level) (concat (map (resource_line level) (r :: rs)) ++ concat (map (nested_line level) ch) ++ tail)
              = POk (concat (map (nested_line level) ch) ++ tail) (r :: rs)).
    { apply many1_print; [| |discriminate].
      - intros zs x ys E. rewrite E in Hrs. apply Forall_app in Hrs. destruct Hrs as [_ Hrs]. inversion Hrs; subst.
        split; [|apply (line_at_ne level), resource_line_at]. apply resource_ok; [assumption|].
        apply (before_lines _ _ level); [lia|intros; apply resource_line_at|exact Hbc].
      - destruct ch as [|[seg child] ch']; [apply resource_short; assumption|]. inversion Hch as [|? ? H1 _]; subst. cbn [map concat].
        unfold nested_line at 1. cbn [fst snd]. rewrite <- !app_assoc. apply resource_not_segment. exact H1. }
    unfold pbind. rewrite Hm.
    assert (He : exists l, many0 line_ending (concat (map (nested_line level) ch) ++ tail) = POk (concat (map (nested_line level) ch) ++ tail) l).
    { eapply endings0_ok; exact Hbc. }
    destruct He as [l He]. rewrite He.
    destruct ch as [|nr ch'].
    + cbn [map concat app]. unfold many1, pbind. rewrite Hstop. reflexivity.
    + rewrite many1_print; [reflexivity|assumption|assumption|discriminate].
Qed.

(** ** Headers *)
Lemma header_text_ok h u : wf_header h -> header_text (h_text h ++ c_nl :: u) = POk (c_nl :: u) (h_text h).
Proof.
  intros (H1 & H2 & H3 & H4). rewrite header_text_eq. destruct (h_text h) as [|x t] eqn:E; [congruence|]. cbn [app].
  destruct (N.eqb_spec x c_slash) as [->|_]; [exfalso; apply H4; reflexivity|].
  change (x :: t ++ c_nl :: u) with ((x :: t) ++ c_nl :: u). unfold not_line_ending. rewrite span_stop.
  - reflexivity.
  - apply Forall_forall. intros c Hc. unfold is_line_char. apply negb_true_iff, orb_false_iff.
    split; apply N.eqb_neq; intros ->; contradiction.
  - cbn. intros c [= <-]. reflexivity.
Qed.
Lemma header_ok h u : wf_header h -> header_p (h_text h ++ c_nl :: u) = POk (skip u) h.
Proof.
  intros H. rewrite header_eq. unfold pbind at 1. rewrite header_text_ok by exact H. unfold pbind.
  destruct (endings1_skip (c_nl :: u)) as [l E]; [discriminate|]. rewrite E. cbn [skip]. rewrite N.eqb_refl.
  destruct h. reflexivity.
Qed.
Lemma skip_header h u : wf_header h -> skip (h_text h ++ u) = h_text h ++ u.
Proof.
  intros (H1 & H2 & H3 & _). destruct (h_text h) as [|x t]; [congruence|]. cbn [app skip].
  destruct (N.eqb_spec x c_nl) as [->|_]; [exfalso; apply H2; left; reflexivity|].
  destruct (N.eqb_spec x c_cr) as [->|_]; [exfalso; apply H3; left; reflexivity|]. reflexivity.
Qed.
Lemma headers_ok hs u : Forall wf_header hs -> hs <> [] ->
  many0 header_p (concat (map (fun h => h_text h ++ [c_nl]) hs) ++ c_nl :: c_slash :: u) = POk (c_slash :: u) hs.
Proof.
  intros Hw Hne. unfold many0.
  assert (H : forall hs n, Forall wf_header hs -> hs <> [] -> 
            length (concat (map (fun h => h_text h ++ [c_nl]) hs) ++ c_nl :: c_slash :: u) < n ->
            many0_aux n header_p (concat (map (fun h => h_text h ++ [c_nl]) hs) ++ c_nl :: c_slash :: u) = POk (c_slash :: u) hs);
    [|apply H; auto].
  clear hs Hw Hne. induction hs as [|h hs IH]; intros n Hw Hne Hn; [congruence|].
  inversion Hw as [|? ? H1 H2]; subst. destruct n as [|n]; [lia|]. cbn [many0_aux map concat] in *. rewrite <- !app_assoc in *.
  change ([c_nl] ++ ?x) with (c_nl :: x) in *. rewrite header_ok by exact H1.
  assert (Hlen : length (h_text h) > 0) by (destruct H1 as [H1 _]; destruct (h_text h); [congruence|simpl; lia]).
  destruct hs as [|h2 hs].
  - cbn [map concat app] in *. change (skip (c_nl :: c_slash :: u)) with (c_slash :: u).
    destruct (str_eqb_spec (c_slash :: u) (h_text h ++ c_nl :: c_nl :: c_slash :: u)) as [E|_].
    { apply (f_equal (@length N)) in E. rewrite app_length in E. simpl in E. lia. }
    destruct n as [|n]; [rewrite app_length in Hn; simpl in Hn; lia|]. cbn [many0_aux].
    assert (E : header_p (c_slash :: u) = PErr) by (rewrite header_eq; unfold pbind; rewrite header_text_eq; reflexivity).
    rewrite E. reflexivity.
  - inversion H2 as [|? ? H3 H4]; subst.
    assert (Es : skip (concat (map (fun h => h_text h ++ [c_nl]) (h2 :: hs)) ++ c_nl :: c_slash :: u)
              = concat (map (fun h => h_text h ++ [c_nl]) (h2 :: hs)) ++ c_nl :: c_slash :: u).
    { cbn [map concat]. rewrite <- !app_assoc. apply skip_header. exact H3. }
    rewrite Es. set (rest := concat (map (fun h => h_text h ++ [c_nl]) (h2 :: hs)) ++ c_nl :: c_slash :: u) in *.
    destruct (str_eqb_spec rest (h_text h ++ c_nl :: rest)) as [E|_].
    { apply (f_equal (@length N)) in E. rewrite app_length in E. simpl in E. lia. }
    rewrite IH; [reflexivity|exact H2|discriminate|]. rewrite app_length in Hn. simpl in Hn. lia.
Qed.
Lemma lines_fit c : lines_within 7 c -> fits 1 (c_routes c).
Proof.
  intros H p q b Hb. destruct (H p q b Hb) as [H1 H2]. split; [exact H1|]. intros r Hr Hq. specialize (H2 r Hr Hq). simpl in *. lia.
Qed.
Lemma round_trip c : wf_config ualnum c -> lines_within 7 c -> route_config_p ualnum (config_stringify c) = POk [] c.
Proof.
  intros [Hh Hw] Hl. rewrite route_config_body. apply lines_fit in Hl.
  set (text := config_stringify c). set (body := routes_stringify 1 (c_routes c)).
  assert (Hm : many0 header_p text = POk (c_slash :: c_nl :: body) (c_headers c)).
  { unfold text, config_stringify. fold body. destruct (c_headers c) as [|h hs] eqn:E.
    - change (many0 header_p (c_slash :: c_nl :: body) = POk (c_slash :: c_nl :: body) []).
      assert (E2 : header_p (c_slash :: c_nl :: body) = PErr) by (rewrite header_eq; unfold pbind; rewrite header_text_eq; reflexivity).
      unfold many0. cbn [many0_aux]. rewrite E2. reflexivity.
    - assert (E2 : str_eqb (concat (map (fun h => h_text h ++ [c_nl]) (h :: hs))) [] = false).
      { apply str_eqb_neq. cbn [map concat]. intros E2. apply app_eq_nil in E2. destruct E2 as [E2 _].
        apply app_eq_nil in E2. destruct E2. discriminate. }
      rewrite E2. change ([c_nl] ++ lit "/" ++ [c_nl] ++ body) with (c_nl :: c_slash :: c_nl :: body).
      apply headers_ok; [exact Hh|discriminate]. }
  assert (Hretain : retain_headers (c_headers c) = c_headers c).
  { unfold retain_headers. clear -Hh. induction Hh as [|h hs [H1 _] _ IH]; [reflexivity|]. cbn [filter].
    destruct (Nat.eqb_spec (length (h_text h)) 0) as [E|_]; [apply length_zero_iff_nil in E; congruence|].
    cbn [negb]. rewrite IH. reflexivity. }
  assert (Hbody : before 2 body).
  { unfold body. destruct (c_routes c) as [rs ch q]. rewrite routes_stringify_lines by exact Hl.
    apply every_block_cons in Hw. destruct Hw as [(_ & _ & Hwch & _) _]. cbn [rt_routes] in Hwch. rewrite Forall_forall in Hwch.
    apply (before_lines _ _ 1); [lia|intros; apply query_line_at|].
    apply (before_lines _ _ 1); [lia|intros; apply resource_line_at|].
    rewrite <- (app_nil_r (concat _)).
    apply (before_lines _ _ 1); [lia|intros; apply nested_line_at, Hwch; assumption|]. left. reflexivity. }
  unfold config_body. unfold pbind at 1. rewrite Hm. unfold pbind at 1.
  destruct (endings0_skip (c_slash :: c_nl :: body)) as [l El]. rewrite El. change (skip (c_slash :: c_nl :: body)) with (c_slash :: c_nl :: body).
  unfold pbind at 1. cbn [pchar]. rewrite N.eqb_refl. unfold pbind at 1.
  destruct (endings_ok 2 body Hbody) as [l' El']. rewrite El'. unfold pbind at 1.
  pose proof (routes_ok (c_routes c) 1 [] (S (length text)) Hw Hl) as Hr. rewrite app_nil_r in Hr. fold body in Hr.
  rewrite Hr.
  - unfold pbind. cbn [eof]. unfold pret. rewrite Hretain. destruct c. reflexivity.
  - lia.
  - left. reflexivity.
  - unfold text, config_stringify. fold body. rewrite !app_length. lia.
Qed.
End Parse.

(** ** Verbs *)
Lemma no_case_ok t w r : map to_lower w = map to_lower t -> is_prefix_no_case t (w ++ r) = true /\ skipn (length t) (w ++ r) = r.
Proof.
  revert t. induction w as [|x w IH]; intros [|y t] H; try discriminate; [split; reflexivity|].
  injection H as H1 H2. destruct (IH t H2) as [IH1 IH2]. cbn [app is_prefix_no_case length skipn]. rewrite H1, N.eqb_refl. auto.
Qed.
(** A text starts with at most one verb. *)
Lemma one_verb w r w' r' m m' : w ++ r = w' ++ r' -> map to_lower w = map to_lower (method_display m) ->
  map to_lower w' = map to_lower (method_display m') -> w = w' /\ m = m'.
Proof.
  intros E H H'.
  assert (Hm : m = m').
  { assert (Hl : map to_lower w ++ map to_lower r = map to_lower w' ++ map to_lower r') by (rewrite <- !map_app, E; reflexivity).
    rewrite H, H' in Hl. destruct m, m'; try reflexivity; discriminate. }
  split; [|exact Hm]. subst m'. assert (Hlen : length w = length w').
  { rewrite <- (map_length to_lower w), <- (map_length to_lower w'), H, H'. reflexivity. }
  clear H H'. revert w' E Hlen. induction w as [|x w IH]; intros [|y w'] E Hlen; try discriminate; [reflexivity|].
  injection E as -> E. f_equal. apply IH; [exact E|]. injection Hlen as Hlen. exact Hlen.
Qed.
Lemma method_iff i r m : method_p i = POk r m <-> exists w, i = w ++ r /\ map to_lower w = map to_lower (method_display m).
Proof.
  split.
  - intros H. apply reads_method in H. exact H.
  - intros (w & -> & H). assert (Hne : method_p (w ++ r) <> PErr).
    { unfold method_p, alt, pbind, tag_no_case, pret.
      destruct m; destruct (no_case_ok _ w r H) as [E _]; cbn [method_display] in E.
      - change (is_prefix_no_case (lit "GET")) with (is_prefix_no_case (lit "get")) in E. rewrite E. discriminate.
      - change (is_prefix_no_case (lit "POST")) with (is_prefix_no_case (lit "post")) in E. rewrite E.
        destruct (is_prefix_no_case (lit "get") (w ++ r)); discriminate.
      - change (is_prefix_no_case (lit "PUT")) with (is_prefix_no_case (lit "put")) in E. rewrite E.
        destruct (is_prefix_no_case (lit "get") (w ++ r)), (is_prefix_no_case (lit "post") (w ++ r)); discriminate.
      - change (is_prefix_no_case (lit "DELETE")) with (is_prefix_no_case (lit "delete")) in E. rewrite E.
        destruct (is_prefix_no_case (lit "get") (w ++ r)), (is_prefix_no_case (lit "post") (w ++ r)), (is_prefix_no_case (lit "put") (w ++ r)); discriminate. }
    destruct (method_cases (w ++ r)) as [(r' & m' & E)|E]; [|congruence]. rewrite E. apply reads_method in E.
    destruct E as (w' & E & H'). destruct (one_verb _ _ _ _ _ _ E H H') as [-> ->]. apply app_inv_head in E. subst. reflexivity.
Qed.
Lemma method_rejects i : method_p i = PErr <-> forall w r m, i = w ++ r -> map to_lower w <> map to_lower (method_display m).
Proof.
  split.
  - intros H w r m E Hw. assert (E2 : method_p i = POk r m) by (apply method_iff; eauto). congruence.
  - intros H. destruct (method_cases i) as [(r & m & E)|E]; [|exact E]. apply method_iff in E. destruct E as (w & E & Hw).
    exfalso. exact (H w r m E Hw).
Qed.
