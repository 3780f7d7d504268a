(** * GrammarFacts: the parser accepts exactly the texts of the grammar *)
From Verif Require Import Base Core Nom Parse Spec SpecMatch SpecParse SpecGrammar BaseFacts ParseFacts RelineFacts RoundFacts NodeFacts.

Scheme block_text_mut := Induction for block_text Sort Prop
  with nested_texts_mut := Induction for nested_texts Sort Prop.

Section Parse.
Variable ualnum : char -> bool.
Notation is_ident := (is_identifier_char ualnum).

(** ** What is accepted is in the grammar *)
Definition of {A} (P : A -> str -> Prop) (w : str) (a : A) : Prop := P a w.
Lemma texts_parts {A} (P : A -> str -> Prop) ws l : Forall2 (of P) ws l -> texts P l (concat ws).
Proof. induction 1 as [|w a ws l H _ IH]; cbn [concat]; constructor; assumption. Qed.
Lemma reads_texts {A} (p : parser A) P : reads p (of P) -> reads (many0 p) (of (texts P)).
Proof.
  intros H. eapply reads_weaken; [|apply reads_many0; exact H]. intros w l (ws & -> & HF). apply texts_parts. exact HF.
Qed.
Lemma reads_texts1 {A} (p : parser A) P : reads p (of P) -> reads (many1 p) (fun w l => l <> [] /\ texts P l w).
Proof.
  intros H. eapply reads_weaken; [|apply reads_many1; exact H]. intros w l (Hn & ws & -> & HF).
  split; [exact Hn|]. apply texts_parts. exact HF.
Qed.
Lemma says_param : reads (param_p ualnum) (of (param_text ualnum)).
Proof.
  unfold param_p. eapply reads_weaken; [|eapply reads_bind; [apply reads_ident|intros ? ?; eapply reads_bind;
    [apply reads_ws, reads_colon|intros ? ?; eapply reads_bind; [apply reads_ident|intros ? ?; apply reads_ret]]]].
  cbn beta. intros w p (w1 & n & w' & -> & (-> & Hn) & w2 & ? & w'' & -> & (s1 & s2 & s3 & -> & S1 & -> & S3)
    & w3 & t & w4 & -> & (-> & Ht) & -> & ->).
  rewrite app_nil_r, <- !app_assoc. constructor; assumption.
Qed.
Lemma says_bracket {B} l r (f : Param -> B) : reads
  (pchar l ;; do param <- ws (param_p ualnum); return_error (pchar r) ;; pret (f param))
  (fun w x => exists p a v b, x = f p /\ w = [l] ++ a ++ v ++ b ++ [r] /\ blanks a /\ param_text ualnum p v /\ blanks b).
Proof.
  eapply reads_weaken; [|eapply reads_bind; [apply reads_char|intros ? ?; eapply reads_bind;
    [apply reads_ws, says_param|intros ? ?; eapply reads_bind; [apply reads_error, reads_char|intros ? ?; apply reads_ret]]]].
  cbn beta. intros w x (w1 & ? & w' & -> & -> & w2 & p & w'' & -> & (s1 & s2 & s3 & -> & S1 & Hp & S3)
    & w3 & ? & w4 & -> & -> & -> & ->).
  exists p, s1, s2, s3. split; [reflexivity|]. split; [rewrite app_nil_r, <- !app_assoc; reflexivity|]. auto.
Qed.
Lemma says_query_line {B} level (e : parser B) : reads e (fun w _ => newlines w) ->
  reads (do q <- query_parameter_p ualnum level; e ;; pret q) (of (query_text ualnum level)).
Proof.
  intros He. eapply reads_weaken; [|eapply reads_bind; [|intros ? ?; eapply reads_bind;
    [exact He|intros ? ?; apply reads_ret]]].
  2: { unfold query_parameter_p. eapply reads_bind; [apply reads_indent|intros ? ?; apply (says_bracket _ _ (fun p => p))]. }
  cbn beta. intros w q (w1 & q' & w2 & -> & (i & ? & w3 & -> & -> & p & a & v & b & -> & -> & H1 & H2 & H3) & w4 & ? & w5 & -> & Hn & -> & ->).
  rewrite app_nil_r, <- !app_assoc. apply (query_text_intro ualnum level p a v b); assumption.
Qed.
Lemma says_segment level : reads (path_segment_p ualnum level) (fun w s => exists v, w = margin level ++ v /\ segment_text ualnum s v).
Proof.
  unfold path_segment_p. eapply reads_weaken; [|eapply reads_bind; [apply reads_indent|intros ? ?]].
  2: { instantiate (1 := fun _ => of (segment_text ualnum)). apply reads_alt.
       - eapply reads_weaken; [|apply says_bracket]. intros w s (p & a' & v & b & -> & -> & H1 & H2 & H3).
         apply (dynamic_text ualnum p a' v b); assumption.
       - eapply reads_weaken; [|eapply reads_bind; [apply reads_ident|intros ? ?; apply reads_ret]].
         cbn beta. intros w s (w1 & t & w2 & -> & (-> & Ht) & -> & ->). rewrite app_nil_r. constructor. exact Ht. }
  cbn beta. intros w s (w1 & ? & w2 & -> & -> & Hw). eauto.
Qed.
Lemma says_path (b : bool) : reads (do modules <- modules_p ualnum; do action <- take_while1 is_ident; pret (b, modules, action))
  (fun w t => fst (fst t) = b /\ path_text ualnum (snd (fst t)) (snd t) w).
Proof.
  unfold modules_p. eapply reads_weaken; [|eapply reads_bind; [apply reads_many0; eapply reads_bind; [apply reads_ident|intros ? ?;
    eapply reads_bind; [apply reads_ws, reads_tag|intros ? ?; apply reads_ret]]|
    intros ? ?; eapply reads_bind; [apply reads_ident|intros ? ?; apply reads_ret]]].
  cbn beta. intros w t (w1 & ms & w' & -> & (ws & -> & HF) & w2 & n & w3 & -> & (-> & Hn) & -> & ->).
  cbn [fst snd]. split; [reflexivity|]. rewrite app_nil_r. induction HF as [|w m ws ms H _ IH]; cbn [concat]; [constructor; exact Hn|].
  destruct H as (v1 & m' & v2 & -> & (-> & Hm) & v3 & ? & v4 & -> & (s1 & s2 & s3 & -> & S1 & -> & S3) & -> & ->).
  rewrite app_nil_r, <- !app_assoc. constructor; assumption.
Qed.
Lemma says_target : reads (target_p ualnum) (fun w t => target_text ualnum (fst (fst t)) (snd (fst t)) (snd t) w).
Proof.
  unfold target_p. apply reads_alt.
  - eapply reads_weaken; [|eapply reads_bind; [apply reads_ws, reads_tag|intros ? ?; apply says_path]].
    cbn beta. intros w [[b ms] n] (w1 & ? & w' & -> & (s1 & s2 & s3 & -> & S1 & -> & S3) & E & H). cbn [fst snd] in *. subst b.
    rewrite <- !app_assoc. constructor; assumption.
  - eapply reads_weaken; [|apply says_path]. cbn beta. intros w [[b ms] n] [E H]. cbn [fst snd] in *. subst b.
    constructor. exact H.
Qed.
Lemma says_resource level : reads (resource_p ualnum level) (of (resource_text ualnum level)).
Proof.
  unfold resource_p. eapply reads_weaken; [|eapply reads_bind; [apply reads_indent|intros ? ?; eapply reads_bind;
    [apply reads_method|intros ? ?; eapply reads_bind; [apply reads_char|intros ? ?; eapply reads_bind;
    [apply says_target|intros ? ?; eapply reads_bind; [apply reads_newline|intros ? ?; eapply reads_bind;
    [apply reads_texts, says_query_line, reads_newline|intros ? ?; apply reads_ret]]]]]]].
  cbn beta. intros w r (w1 & ? & w' & -> & -> & w2 & m & w'' & -> & Hm & w3 & ? & w''' & -> & ->
    & w4 & t & w4' & -> & Ht & w5 & ? & w5' & -> & Hn & w6 & q & w7 & -> & Hq & -> & ->).
  rewrite app_nil_r. apply (resource_text_intro ualnum level m _ _ _ q w2 w4 w5 w6); assumption.
Qed.
(** [many0!] and [many1!] of nested routes give [nested_texts]. *)
Definition nested_text (level : nat) (nr : NestedRoutes) (s : str) : Prop :=
  exists w e v, s = margin level ++ w ++ e ++ v /\ segment_text ualnum (fst nr) w /\ newlines e /\
    block_text ualnum (S level) (snd nr) v.
Lemma texts_nested level l s : texts (nested_text level) l s -> nested_texts ualnum level l s.
Proof.
  induction 1 as [|[seg child] l s rest (w & e & v & -> & H1 & H2 & H3) _ IH]; [constructor|].
  rewrite <- !app_assoc. constructor; assumption.
Qed.
(** Line breaks may be added after a line. *)
Lemma newlines_app e e' : newlines e -> newlines e' -> newlines (e ++ e').
Proof. induction 1 as [e He|e es He _ IH]; intros H'; rewrite <- ?app_assoc; apply newlines_more; auto. Qed.
Lemma reads_breaks : reads (many0 line_ending) (fun w _ => w = [] \/ newlines w).
Proof.
  eapply reads_weaken; [|apply reads_many0, reads_line_ending]. cbn beta. intros w l (ws & -> & HF).
  destruct (newlines_concat ws l HF) as [->|H]; auto.
Qed.
Lemma texts_more {A} (P : A -> str -> Prop) xs s e : xs <> [] -> texts P xs s -> (forall x v, P x v -> P x (v ++ e)) ->
  texts P xs (s ++ e).
Proof.
  intros Hne H HP. induction H as [|x xs v rest Hv H IH]; [congruence|]. rewrite <- app_assoc.
  destruct xs as [|y ys].
  - inversion H; subst. cbn [app]. rewrite <- (app_nil_r (v ++ e)). constructor; [auto|constructor].
  - constructor; [exact Hv|]. apply IH. discriminate.
Qed.
Lemma query_more level q v e : newlines e -> query_text ualnum level q v -> query_text ualnum level q (v ++ e).
Proof.
  intros He H. destruct H as [p a w b e' Ha Hw Hb He']. rewrite <- !app_assoc. constructor; try assumption.
  apply newlines_app; assumption.
Qed.
Lemma resource_more level r v e : newlines e -> resource_text ualnum level r v -> resource_text ualnum level r (v ++ e).
Proof.
  intros He H. destruct H as [m ms n redirect query v w e' s Hv Hw He' Hq]. rewrite <- !app_assoc.
  destruct query as [|q qs].
  - inversion Hq; subst. cbn [app]. rewrite <- (app_nil_r (e' ++ e)). constructor; auto using newlines_app.
  - constructor; try assumption. apply texts_more; [discriminate|exact Hq|]. intros. apply query_more; assumption.
Qed.
Lemma says_body nested level : reads (nested level) (of (nested_text level)) ->
  reads (routes_body_p ualnum nested level) (of (block_text ualnum level)).
Proof.
  intros Hn. unfold routes_body_p.
  eapply reads_weaken; [|eapply reads_bind; [apply reads_texts, says_query_line, reads_endings
    |intros ? ?; eapply reads_bind; [|intros ? ?; apply reads_ret]]].
  2: { unfold resources_and_routes_p. apply reads_error.
       instantiate (1 := fun w rnr => exists s2 s3, w = s2 ++ s3 /\ (fst rnr <> [] \/ snd rnr <> []) /\
         texts (resource_text ualnum level) (fst rnr) s2 /\ nested_texts ualnum level (snd rnr) s3).
       cbn beta. apply reads_alt.
       - eapply reads_weaken; [|eapply reads_bind; [apply reads_texts1, says_resource|intros ? ?; eapply reads_bind;
           [|intros ? ?; apply reads_ret]]].
         2: { instantiate (1 := fun w l => exists e s, w = e ++ s /\ (e = [] \/ newlines e) /\ nested_texts ualnum level l s).
              cbn beta. apply reads_alt.
              - eapply reads_weaken; [|eapply reads_bind; [apply reads_breaks|intros ? ?; apply reads_texts1, Hn]].
                cbn beta. intros w l (w1 & ? & w2 & -> & He & _ & Hl). exists w1, w2. auto using texts_nested.
              - eapply reads_weaken; [|apply reads_ret]. cbn beta. intros w l (-> & ->). exists [], []. repeat split; [auto|constructor]. }
         cbn beta. intros w rnr (w1 & rs & w' & -> & (Hne & Hr) & w2 & l & w3 & -> & (e & s & -> & He & Hl) & -> & ->).
         cbn [fst snd]. rewrite app_nil_r. exists (w1 ++ e), s. rewrite <- app_assoc. split; [reflexivity|].
         split; [left; exact Hne|]. split; [|exact Hl]. destruct He as [->|He]; [rewrite app_nil_r; exact Hr|].
         apply texts_more; [exact Hne|exact Hr|]. intros r v Hv. apply resource_more; assumption.
       - eapply reads_weaken; [|eapply reads_bind; [apply reads_texts1, Hn|intros ? ?; apply reads_ret]].
         cbn beta. intros w rnr (w1 & l & w' & -> & (Hne & Hl) & -> & ->). exists [], w1. rewrite app_nil_r.
         split; [reflexivity|]. split; [right; exact Hne|]. split; [constructor|apply texts_nested; exact Hl]. }
  cbn beta. intros w b (w1 & q & w' & -> & Hq & w2 & [rs ch] & w3 & -> & (s2 & s3 & -> & Hne & Hr & Hc) & -> & ->).
  cbn [fst snd] in *. rewrite app_nil_r. constructor; assumption.
Qed.
Lemma says_nested routes level : reads (routes (S level)) (of (block_text ualnum (S level))) ->
  reads (nested_body_p ualnum routes level) (of (nested_text level)).
Proof.
  intros Hr. unfold nested_body_p. eapply reads_weaken; [|eapply reads_bind; [apply says_segment|intros ? ?; eapply reads_bind;
    [apply reads_endings|intros ? ?; eapply reads_bind; [apply reads_error, Hr|intros ? ?; apply reads_ret]]]].
  cbn beta. intros w nr (w1 & seg & w' & -> & (v & -> & Hs) & w2 & ? & w'' & -> & Hnl & w3 & b & w4 & -> & Hb & -> & ->).
  exists v, w2, w3. rewrite app_nil_r, <- !app_assoc. auto.
Qed.
Lemma says_routes : forall fuel level, reads (routes_p ualnum fuel level) (of (block_text ualnum level)).
Proof.
  induction fuel as [|fuel IH]; intros level i r a H; [discriminate|].
  cbn [routes_p] in H. revert i r a H. apply says_body, says_nested, IH.
Qed.
(** Empty header lines are line breaks. *)
Definition line_or_blank (w : str) (h : Header) : Prop := exists e, w = h_text h ++ e /\ wf_line (h_text h) /\ newlines e.
Lemma says_header : reads header_p line_or_blank.
Proof.
  intros i r a H. rewrite header_eq in H. revert i r a H.
  eapply reads_weaken; [|eapply reads_bind; [apply reads_header_text|intros ? ?; eapply reads_bind;
    [apply reads_endings|intros ? ?; apply reads_ret]]].
  cbn beta. intros w h (w1 & t & w' & -> & (-> & Ht) & w2 & ? & w3 & -> & Hn & -> & ->). exists w2. rewrite app_nil_r. auto.
Qed.
Lemma header_more h v e : newlines e -> header_line h v -> header_line h (v ++ e).
Proof. intros He H. destruct H as [h e' Hh He']. rewrite <- app_assoc. constructor; auto using newlines_app. Qed.
Lemma header_lines ws l : Forall2 line_or_blank ws l ->
  exists e s, concat ws = e ++ s /\ (e = [] \/ newlines e) /\ texts header_line (retain_headers l) s.
Proof.
  induction 1 as [|w h ws l (e & -> & (H1 & H2 & H3) & He) _ (e' & s & Ec & He' & Hs)].
  - exists [], []. repeat split; [auto|constructor].
  - unfold retain_headers in *. cbn [filter concat]. rewrite Ec. destruct (Nat.eqb_spec (length (h_text h)) 0) as [E|E]; cbn [negb].
    + apply length_zero_iff_nil in E. rewrite E. cbn [app]. exists (e ++ e'), s. rewrite app_assoc. split; [reflexivity|].
      split; [|exact Hs]. right. destruct He' as [->|He']; [rewrite app_nil_r; exact He|apply newlines_app; assumption].
    + exists [], ((h_text h ++ e ++ e') ++ s). cbn [app]. rewrite <- !app_assoc. split; [reflexivity|]. split; [auto|].
      rewrite (app_assoc e), (app_assoc (h_text h)). constructor; [|exact Hs]. constructor.
      * split; [intros E2; apply E; rewrite E2; reflexivity|auto].
      * destruct He' as [->|He']; [rewrite app_nil_r; exact He|apply newlines_app; assumption].
Qed.
Lemma headers_more hs s e : newlines e -> texts header_line hs s -> 
  exists e0 s', s ++ e = e0 ++ s' /\ (e0 = [] \/ newlines e0) /\ texts header_line hs s'.
Proof.
  intros He H. destruct hs as [|h hs].
  - inversion H; subst. exists e, []. rewrite app_nil_r. repeat split; [auto|constructor].
  - exists [], (s ++ e). repeat split; [auto|]. apply texts_more; [discriminate|exact H|]. intros. apply header_more; assumption.
Qed.
Lemma breaks_app e e' : (e = [] \/ newlines e) -> (e' = [] \/ newlines e') -> e ++ e' = [] \/ newlines (e ++ e').
Proof. intros [->|H] [->|H']; rewrite ?app_nil_r; auto using newlines_app. Qed.
Lemma parse_sound i c : route_config_p ualnum i = POk [] c -> config_text ualnum c i.
Proof.
  rewrite route_config_body. intros H.
  assert (Hreads : reads (config_body ualnum (S (length i))) (of (config_text ualnum))).
  { clear. unfold config_body. eapply reads_weaken; [|eapply reads_bind; [apply reads_many0, says_header|intros ? ?;
      eapply reads_bind; [apply reads_breaks|intros ? ?; eapply reads_bind; [apply reads_char|intros ? ?;
      eapply reads_bind; [apply reads_endings|intros ? ?; eapply reads_bind; [apply says_routes|intros ? ?;
      eapply reads_bind; [apply reads_eof|intros ? ?; apply reads_ret]]]]]]].
    cbn beta. intros w c (w1 & hs & w' & -> & (ws & -> & HF) & w2 & ? & w'' & -> & He & w3 & ? & w''' & -> & -> & w4 & ? & w'''' & -> & Hn
      & w5 & b & w6 & -> & Hb & w7 & ? & w8 & -> & -> & -> & ->).
    apply header_lines in HF. destruct HF as (e0 & s & -> & He0 & Hs). cbn [app]. rewrite app_nil_r.
    assert (Hs' : exists e1 s', s ++ w2 = e1 ++ s' /\ (e1 = [] \/ newlines e1) /\ texts header_line (retain_headers hs) s').
    { destruct He as [->|He]; [exists [], s; rewrite app_nil_r; auto|]. apply headers_more; assumption. }
    destruct Hs' as (e1 & s' & E & He1 & Hs'). rewrite <- app_assoc, (app_assoc s), E.
    rewrite <- app_assoc, app_assoc. apply (config_text_intro ualnum _ b (e0 ++ e1) s' w4 w5); auto using breaks_app. }
  apply Hreads in H. destruct H as (w & -> & Hw). rewrite app_nil_r. exact Hw.
Qed.

(** ** The texts of the grammar are accepted *)
Definition stops (i : str) : Prop := forall c, hd_error i = Some c -> is_sp c = false.
Lemma sp_ok a i : spaces a -> stops i -> sp (a ++ i) = POk i tt.
Proof.
  intros Ha Hi. unfold sp. rewrite span_spaces by exact Ha. destruct i as [|c i]; [reflexivity|].
  cbn [span]. rewrite (Hi c eq_refl). reflexivity.
Qed.
Lemma ws_ok {A} (p : parser A) a i b r x : spaces a -> stops i -> p i = POk (b ++ r) x -> spaces b -> stops r ->
  ws p (a ++ i) = POk r x.
Proof.
  intros Ha Hi Hp Hb Hr. unfold ws, pbind at 1. rewrite sp_ok by assumption. unfold pbind at 1. rewrite Hp.
  unfold pbind. rewrite sp_ok by assumption. reflexivity.
Qed.
Lemma ident_stops a c s : spaces a -> is_ident c = false -> forall d, hd_error (a ++ c :: s) = Some d -> is_ident d = false.
Proof.
  intros Ha Hc d Hd. destruct Ha as [|x a Hx _]; injection Hd as <-; [exact Hc|].
  destruct (is_ident x) eqn:E; [|reflexivity]. apply ident_not in E. destruct E. congruence.
Qed.
Lemma stops_ident t s : ident ualnum t -> stops (t ++ s).
Proof. intros Ht c Hc. destruct (ident_head ualnum _ Ht) as (d & t' & -> & Hd). injection Hc as <-. apply (ident_not ualnum). exact Hd. Qed.
Lemma param_says p w s : param_text ualnum p w -> (forall c, hd_error s = Some c -> is_ident c = false) ->
  param_p ualnum (w ++ s) = POk s p.
Proof.
  intros H Hs. destruct H as [n a b t Hn Ha Hb Ht]. unfold param_p. rewrite <- !app_assoc.
  unfold pbind at 1. rewrite ident_ok; [|exact Hn|apply (ident_stops a c_colon (b ++ t ++ s)); [exact Ha|reflexivity]].
  unfold pbind at 1. rewrite (ws_ok colon_p a (lit ":" ++ b ++ t ++ s) b (t ++ s) tt); try assumption.
  - unfold pbind. rewrite ident_ok by assumption. reflexivity.
  - intros c [= <-]. reflexivity.
  - reflexivity.
  - apply stops_ident. exact Ht.
Qed.
Lemma stops_param p w s : param_text ualnum p w -> stops (w ++ s).
Proof. intros H. destruct H as [n a b t Hn Ha Hb Ht]. rewrite <- app_assoc. apply stops_ident. exact Hn. Qed.
Lemma bracket_says {B} l r (f : Param -> B) p a w b s : blanks a -> param_text ualnum p w -> blanks b ->
  is_ident r = false -> is_sp r = false ->
  (pchar l ;; do param <- ws (param_p ualnum); return_error (pchar r) ;; pret (f param)) (l :: a ++ w ++ b ++ r :: s)
  = POk s (f p).
Proof.
  intros Ha Hw Hb Hr Hsp. unfold pbind at 1. cbn [pchar]. rewrite N.eqb_refl. unfold pbind at 1.
  rewrite (ws_ok _ a (w ++ b ++ r :: s) b (r :: s) p).
  - unfold pbind, return_error. cbn [pchar]. rewrite N.eqb_refl. reflexivity.
  - exact Ha.
  - eapply stops_param. exact Hw.
  - apply param_says; [exact Hw|]. apply ident_stops; assumption.
  - exact Hb.
  - intros d [= <-]. exact Hsp.
Qed.
(** *** Line breaks *)
Lemma endings_says n e tail : newlines e -> before n tail -> exists l, many1 line_ending (e ++ tail) = POk tail l.
Proof.
  intros He H. destruct (endings1_skip (e ++ tail)) as [l Hl].
  - destruct (newlines_head e He) as (c & e' & -> & [->|(-> & e'' & ->)]); discriminate.
  - exists l. rewrite Hl, skip_newlines by exact He. rewrite no_ending_skip; [reflexivity|]. eapply before_ending; eauto.
Qed.
Lemma newline_says n e tail : newlines e -> before n tail -> require_newline (e ++ tail) = POk tail tt.
Proof.
  intros He H. destruct (endings_says n e tail He H) as [l Hl]. unfold require_newline, return_error, pbind. rewrite Hl. reflexivity.
Qed.
Lemma before_stops n tail : before n tail -> exists a i, tail = a ++ i /\ spaces a /\ stops i /\ hd_error i <> Some c_colon.
Proof.
  intros [->|(k & c & t & Hk & -> & Hc & Hn)].
  - exists [], []. repeat split; [constructor|discriminate|discriminate].
  - exists (ind k), (c :: t). repeat split; [apply indent_spaces|intros d [= <-]; exact Hc|intros [= E]; contradiction].
Qed.
Lemma colons_says n e tail : newlines e -> before n tail -> ws (tag (lit "::")) (e ++ tail) = PErr.
Proof.
  intros He H. destruct (before_stops n tail H) as (a & i & -> & Ha & Hi & Hn). rewrite app_assoc.
  unfold ws, pbind at 1. rewrite sp_ok; [|apply Forall_app; split; [apply newlines_spaces; exact He|exact Ha]|exact Hi].
  unfold pbind, tag. destruct i as [|c i]; [reflexivity|]. cbn [lit is_prefix].
  destruct (N.eqb_spec (N_of_ascii ":") c) as [<-|_]; [exfalso; apply Hn; reflexivity|reflexivity].
Qed.
Lemma newlines_ident e s : newlines e -> forall d, hd_error (e ++ s) = Some d -> is_ident d = false.
Proof. intros He d Hd. destruct (newlines_head e He) as (c & e' & -> & [->|(-> & _)]); injection Hd as <-; reflexivity. Qed.
(** *** Paths *)
Lemma stops_path ms n w s : path_text ualnum ms n w -> exists c t, w ++ s = c :: t /\ is_ident c = true.
Proof.
  intros H. destruct H as [n Hn|m ms n a b w Hm _ _ _]; rewrite <- ?app_assoc.
  - destruct (ident_head ualnum _ Hn) as (c & t & -> & Hc). cbn [app]. eauto.
  - destruct (ident_head ualnum _ Hm) as (c & t & -> & Hc). cbn [app]. eauto.
Qed.
Lemma modules_says k e tail : newlines e -> before k tail -> forall ms n w, path_text ualnum ms n w ->
  ident ualnum n /\ forall fuel, length (w ++ e ++ tail) < fuel ->
  many0_aux fuel (do m <- take_while1 is_ident; ws (tag (lit "::")) ;; pret m) (w ++ e ++ tail) = POk (n ++ e ++ tail) ms.
Proof.
  intros He Hb ms n w H. induction H as [n Hn|m ms n a b w Hm Ha Hbl Hw [IHn IH]].
  - split; [exact Hn|]. intros [|fuel] Hf; [lia|]. cbn [many0_aux]. unfold pbind at 1.
    rewrite ident_ok; [|exact Hn|apply newlines_ident; exact He]. unfold pbind. rewrite (colons_says k) by assumption. reflexivity.
  - split; [exact IHn|]. intros [|fuel] Hf; [lia|]. cbn [many0_aux]. rewrite <- !app_assoc in *. unfold pbind at 1.
    rewrite ident_ok; [|exact Hm|apply (ident_stops a c_colon (c_colon :: b ++ w ++ e ++ tail)); [exact Ha|reflexivity]].
    unfold pbind. rewrite (ws_ok _ a (lit "::" ++ b ++ w ++ e ++ tail) b (w ++ e ++ tail) tt); try assumption.
    + unfold pret at 1. cbn iota beta.
      destruct (str_eqb_spec (w ++ e ++ tail) (m ++ a ++ lit "::" ++ b ++ w ++ e ++ tail)) as [E|_].
      { apply (f_equal (@length N)) in E. rewrite !app_length in E. change (length (lit "::")) with 2 in E. lia. }
      unfold pbind in IH. rewrite IH; [reflexivity|]. rewrite !app_length in *. change (length (lit "::")) with 2 in Hf. lia.
    + intros c [= <-]. reflexivity.
    + reflexivity.
    + intros c Hc. destruct (stops_path _ _ _ (e ++ tail) Hw) as (d & t & E & Hd). rewrite E in Hc. injection Hc as <-.
      apply (ident_not ualnum). exact Hd.
Qed.
Lemma path_says (b : bool) k e tail ms n w : newlines e -> before k tail -> path_text ualnum ms n w ->
  (do modules <- modules_p ualnum; do action <- take_while1 is_ident; pret (b, modules, action)) (w ++ e ++ tail)
  = POk (e ++ tail) (b, ms, n).
Proof.
  intros He Hb Hw. destruct (modules_says k e tail He Hb ms n w Hw) as [Hn Hm].
  unfold pbind at 1, modules_p, many0. rewrite Hm by lia. unfold pbind.
  rewrite ident_ok; [reflexivity|exact Hn|apply newlines_ident; exact He].
Qed.
Lemma target_says b k e tail ms n w : newlines e -> before k tail -> target_text ualnum b ms n w ->
  target_p ualnum (w ++ e ++ tail) = POk (e ++ tail) (b, ms, n).
Proof.
  intros He Hb H. unfold target_p, alt. destruct H as [ms n w Hw|ms n a b w Ha Hbl Hw].
  - destruct (stops_path _ _ _ (e ++ tail) Hw) as (c & t & E & Hc).
    assert (Hno : ws (tag (lit "->")) (w ++ e ++ tail) = PErr).
    { rewrite E. unfold ws, pbind at 1. rewrite sp_stop by (apply (ident_not ualnum); exact Hc). unfold pbind, tag. cbn [lit is_prefix].
      destruct (N.eqb_spec (N_of_ascii "-") c) as [<-|_]; [discriminate|reflexivity]. }
    unfold pbind at 1. rewrite Hno. eapply path_says; eauto.
  - unfold pbind at 1. rewrite <- !app_assoc.
    rewrite (ws_ok _ a (lit "->" ++ b ++ w ++ e ++ tail) b (w ++ e ++ tail) tt); try assumption.
    + rewrite (path_says true k e tail ms n w) by assumption. reflexivity.
    + intros c [= <-]. reflexivity.
    + reflexivity.
    + intros c Hc. destruct (stops_path _ _ _ (e ++ tail) Hw) as (d & t & E & Hd). rewrite E in Hc. injection Hc as <-.
      apply (ident_not ualnum). exact Hd.
Qed.
(** *** Lists *)
Lemma many_texts {A} (p : parser A) (P : A -> str -> Prop) tail : p tail = PErr ->
  (forall x xs s rest, P x s -> texts P xs rest -> p (s ++ rest ++ tail) = POk (rest ++ tail) x /\ s <> []) ->
  forall xs text, texts P xs text -> forall fuel, length (text ++ tail) < fuel -> many0_aux fuel p (text ++ tail) = POk tail xs.
Proof.
  intros Ht Hx xs text H. induction H as [|x xs s rest Hs H IH]; intros [|fuel] Hf; try lia; cbn [many0_aux].
  - cbn [app]. rewrite Ht. reflexivity.
  - rewrite <- app_assoc in *. destruct (Hx x xs s rest Hs H) as [H1 H2]. rewrite H1.
    destruct (str_eqb_spec (rest ++ tail) (s ++ rest ++ tail)) as [E|_]; [apply app_self in E; congruence|].
    rewrite IH; [reflexivity|]. rewrite app_length in Hf. destruct s; [congruence|simpl in Hf; lia].
Qed.
Lemma many1_texts {A} (p : parser A) (P : A -> str -> Prop) tail : p tail = PErr ->
  (forall x xs s rest, P x s -> texts P xs rest -> p (s ++ rest ++ tail) = POk (rest ++ tail) x /\ s <> []) ->
  forall xs text, texts P xs text -> xs <> [] -> many1 p (text ++ tail) = POk tail xs.
Proof.
  intros Ht Hx xs text H Hne. destruct H as [|x xs s rest Hs H]; [congruence|].
  rewrite <- app_assoc. unfold many1, pbind at 1. rewrite (proj1 (Hx x xs s rest Hs H)). unfold pbind, many0.
  rewrite (many_texts p P tail Ht Hx xs rest H) by lia. reflexivity.
Qed.
Lemma before_texts {A} (P : A -> str -> Prop) n k xs text tail : k < n -> (forall x s, P x s -> line_at k s) -> texts P xs text ->
  before n tail -> before n (text ++ tail).
Proof.
  intros Hk HP H Ht. destruct H as [|x xs s rest Hs _]; [exact Ht|]. rewrite <- app_assoc.
  eapply before_line; [exact Hk|]. eapply HP. exact Hs.
Qed.
(** *** Query parameters *)
Lemma query_at level q s : query_text ualnum level q s -> line_at level s.
Proof. intros H. destruct H. exists c_lbrack, (a ++ w ++ b ++ lit "]" ++ e). repeat split; discriminate. Qed.
Lemma queries_says {B} level (p : parser B) qs text tail :
  (forall n e tl, newlines e -> before n tl -> exists b, p (e ++ tl) = POk tl b) ->
  texts (query_text ualnum level) qs text -> before (S level) tail -> query_parameter_p ualnum level tail = PErr ->
  many0 (do q <- query_parameter_p ualnum level; p ;; pret q) (text ++ tail) = POk tail qs.
Proof.
  intros Hp H Hb Ht. unfold many0. apply (many_texts _ (query_text ualnum level)); [| |exact H|lia].
  - unfold pbind. rewrite Ht. reflexivity.
  - intros q xs s rest Hq Hr. split; [|apply (line_at_ne level); eapply query_at; exact Hq].
    assert (Hb2 : before (S level) (rest ++ tail)) by (eapply before_texts; [|apply query_at|exact Hr|exact Hb]; lia).
    destruct Hq as [q a w b e Ha Hw Hbl He].
    replace ((margin level ++ lit "[" ++ a ++ w ++ b ++ lit "]" ++ e) ++ rest ++ tail)
      with (ind level ++ c_lbrack :: a ++ w ++ b ++ c_rbrack :: e ++ rest ++ tail) by (rewrite <- !app_assoc; reflexivity).
    unfold pbind at 1. unfold query_parameter_p. unfold pbind at 1. rewrite indent_ok.
    rewrite (bracket_says c_lbrack c_rbrack (fun p => p) q a w b); try assumption; try reflexivity.
    unfold pbind. destruct (Hp (S level) e (rest ++ tail) He Hb2) as [x Ex]. rewrite Ex. reflexivity.
Qed.
(** *** Resources *)
Lemma verb_head v m : map to_lower v = map to_lower (method_display m) ->
  exists c t, v = c :: t /\ is_sp c = false /\ c <> c_colon /\ c <> c_lbrack.
Proof.
  intros H. destruct v as [|c v]; [destruct m; discriminate|]. exists c, v. split; [reflexivity|].
  assert (Hc : to_lower c = 103%N \/ to_lower c = 112%N \/ to_lower c = 100%N) by (destruct m; injection H; intros; auto).
  split; [|split; intros ->; vm_compute in Hc; intuition discriminate].
  unfold is_sp. rewrite !orb_false_iff. repeat split; apply N.eqb_neq; intros ->; vm_compute in Hc; intuition discriminate.
Qed.
Lemma resource_at level r s : resource_text ualnum level r s -> line_at level s.
Proof.
  intros H. destruct H as [m ms n redirect query v w e s Hv Hw He Hq].
  destruct (verb_head v m Hv) as (c & t & -> & H1 & H2 & _). exists c, (t ++ lit " " ++ w ++ e ++ s). repeat split; assumption.
Qed.
Lemma resource_says level r s tail : resource_text ualnum level r s -> before (S level) tail ->
  resource_p ualnum level (s ++ tail) = POk tail r.
Proof.
  intros H Hb. destruct H as [m ms n redirect query v w e s Hv Hw He Hq].
  assert (Hb2 : before (S (S level)) (s ++ tail)).
  { eapply before_texts; [|apply query_at|exact Hq|eapply before_mono; [|exact Hb]]; lia. }
  replace ((margin level ++ v ++ lit " " ++ w ++ e ++ s) ++ tail) with (ind level ++ v ++ c_space :: w ++ e ++ s ++ tail)
    by (rewrite <- !app_assoc; reflexivity).
  unfold resource_p, pbind at 1. rewrite indent_ok. unfold pbind at 1.
  assert (Em : method_p (v ++ c_space :: w ++ e ++ s ++ tail) = POk (c_space :: w ++ e ++ s ++ tail) m) by (apply method_iff; eauto).
  rewrite Em. unfold pbind at 1. cbn [pchar]. rewrite N.eqb_refl. unfold pbind at 1.
  rewrite (target_says redirect (S (S level)) e (s ++ tail) ms n w) by assumption.
  unfold pbind at 1. rewrite (newline_says (S (S level))) by assumption. unfold pbind.
  rewrite (queries_says (S level) require_newline query).
  - reflexivity.
  - intros k e' tl He' Hk. exists tt. eapply newline_says; eauto.
  - exact Hq.
  - eapply before_mono; [|exact Hb]. lia.
  - apply query_short; [lia|exact Hb].
Qed.
(** *** Segments *)
Lemma segment_start seg w u : segment_text ualnum seg w -> exists c t, w ++ u = c :: t /\ is_sp c = false /\ c <> c_colon /\ c <> c_lbrack.
Proof.
  intros H. destruct H as [t Ht|p a w b _ _ _].
  - destruct (ident_head ualnum _ Ht) as (c & t' & -> & Hc). cbn [app]. pose proof (ident_not ualnum c Hc).
    eexists. eexists. split; [reflexivity|]. tauto.
  - eexists. eexists. split; [reflexivity|]. repeat split; discriminate.
Qed.
Lemma no_verb seg w e u : segment_text ualnum seg w -> newlines e ->
  method_p (w ++ e ++ u) = PErr \/ exists r m, method_p (w ++ e ++ u) = POk r m /\ pchar c_space r = PErr.
Proof.
  intros Hs He. destruct Hs as [t Ht|p a w b _ _ _].
  2: { left. rewrite <- !app_assoc. reflexivity. }
  destruct (method_cases (t ++ e ++ u)) as [(r & m & E)|E]; [|left; exact E]. right. exists r, m. split; [exact E|].
  apply method_iff in E. destruct E as (v & Ev & Hv).
  assert (Hnl : ~ In c_nl v /\ ~ In c_cr v).
  { split; intros Hin; apply (in_map to_lower) in Hin; rewrite Hv in Hin; destruct m; vm_compute in Hin; intuition discriminate. }
  apply ident_iff in Ht. destruct Ht as [_ Hf]. destruct (newlines_head e He) as (c & e' & -> & Hc). cbn [app] in Ev.
  assert (Hc' : (c = c_nl \/ c = c_cr)) by tauto. clear Hc Hv He. revert v Ev Hnl.
  induction Hf as [|d t Hd _ IH]; intros v Ev Hnl.
  - destruct v as [|d v].
    + cbn [app] in Ev. subst r. destruct Hc' as [->| ->]; reflexivity.
    + injection Ev as <- _. exfalso. destruct Hc' as [->| ->]; [apply (proj1 Hnl)|apply (proj2 Hnl)]; left; reflexivity.
  - destruct v as [|d' v].
    + cbn [app] in Ev. subst r. cbn [pchar]. destruct (N.eqb_spec d c_space) as [->|_]; [discriminate|reflexivity].
    + injection Ev as <- Ev. apply (IH v Ev). split; intros Hin; [apply (proj1 Hnl)|apply (proj2 Hnl)]; right; exact Hin.
Qed.
Lemma not_resource level seg w e u : segment_text ualnum seg w -> newlines e ->
  resource_p ualnum level (margin level ++ w ++ e ++ u) = PErr.
Proof.
  intros Hs He. unfold resource_p, pbind at 1. rewrite indent_ok. unfold pbind at 1.
  destruct (no_verb seg w e u Hs He) as [E|(r & m & E & Hsp)]; rewrite E; [reflexivity|].
  unfold pbind. rewrite Hsp. reflexivity.
Qed.
Lemma segment_says level seg w e u : segment_text ualnum seg w -> newlines e ->
  path_segment_p ualnum level (margin level ++ w ++ e ++ u) = POk (e ++ u) seg.
Proof.
  intros Hs He. unfold path_segment_p, pbind at 1. rewrite indent_ok. unfold alt. destruct Hs as [t Ht|p a w b Ha Hw Hb].
  - destruct (ident_head ualnum _ Ht) as (c & t' & E & Hc).
    assert (Hch : pchar c_lbrace (t ++ e ++ u) = PErr).
    { rewrite E. cbn [app pchar]. destruct (N.eqb_spec c c_lbrace) as [->|_]; [discriminate|reflexivity]. }
    unfold pbind at 1. rewrite Hch. unfold pbind. rewrite ident_ok; [reflexivity|exact Ht|]. apply newlines_ident. exact He.
  - replace ((lit "{" ++ a ++ w ++ b ++ lit "}") ++ e ++ u) with (c_lbrace :: a ++ w ++ b ++ c_rbrace :: e ++ u)
      by (rewrite <- !app_assoc; reflexivity).
    rewrite (bracket_says c_lbrace c_rbrace Dynamic p a w b); try assumption; reflexivity.
Qed.
(** *** Blocks *)
Lemma nested_at level l s : nested_texts ualnum level l s -> l = [] /\ s = [] \/ line_at level s.
Proof.
  intros H. destruct H as [level|level seg child l w e s rest Hs He _ _]; [left; auto|right].
  destruct (segment_start seg w (e ++ s ++ rest) Hs) as (c & t & E & H1 & H2 & _). exists c, t. rewrite E. auto.
Qed.
Lemma before_nested n level l s tail : level < n -> nested_texts ualnum level l s -> before n tail -> before n (s ++ tail).
Proof. intros Hl H Ht. destruct (nested_at _ _ _ H) as [[_ ->]|Hs]; [exact Ht|]. eapply before_line; eauto. Qed.
Lemma before_block n level b s tail : level < n -> block_text ualnum level b s -> before n tail -> before n (s ++ tail).
Proof.
  intros Hl H Ht. destruct H as [level rs ch q s1 s2 s3 Hne Hq Hr Hc]. rewrite <- !app_assoc.
  eapply before_texts; [exact Hl|apply query_at|exact Hq|]. eapply before_texts; [exact Hl|apply resource_at|exact Hr|].
  eapply before_nested; eauto.
Qed.
Lemma no_query level rs ch s2 s3 tail : rs <> [] \/ ch <> [] ->
  texts (resource_text ualnum level) rs s2 -> nested_texts ualnum level ch s3 ->
  query_parameter_p ualnum level (s2 ++ s3 ++ tail) = PErr.
Proof.
  intros Hne Hr Hc. destruct Hr as [|r rs s rest Hr _].
  - destruct Hc as [level|level seg child l w e s rest Hs _ _ _]; [destruct Hne; congruence|]. cbn [app]. rewrite <- !app_assoc.
    destruct (segment_start seg w (e ++ s ++ rest ++ tail) Hs) as (c & t & E & _ & _ & Hb). rewrite E. apply query_other. exact Hb.
  - destruct Hr as [m ms n redirect query v w e s Hv _ _ _]. destruct (verb_head v m Hv) as (c & t & -> & _ & _ & Hb).
    rewrite <- !app_assoc. apply query_other. exact Hb.
Qed.
Definition nested_of (fuel level : nat) : parser NestedRoutes := nested_body_p ualnum (routes_p ualnum fuel) level.
Definition block_said (level : nat) (b : Routes) (s : str) : Prop := forall tail fuel,
  level > 0 -> before level tail -> length (s ++ tail) < fuel -> routes_p ualnum fuel level (s ++ tail) = POk tail b.
Definition nested_said (level : nat) (l : list NestedRoutes) (s : str) : Prop := forall tail fuel,
  level > 0 -> before level tail -> length (s ++ tail) <= fuel ->
  (forall n, length (s ++ tail) < n -> many0_aux n (nested_of fuel level) (s ++ tail) = POk tail l) /\
  (l <> [] -> many1 (nested_of fuel level) (s ++ tail) = POk tail l).
Lemma nested_none fuel level tail : level > 0 -> before level tail -> nested_of fuel level tail = PErr.
Proof. intros Hl Hb. unfold nested_of, nested_body_p, pbind. rewrite segment_short by assumption. reflexivity. Qed.
Lemma nested_cons_said level seg child l w e s rest : segment_text ualnum seg w -> newlines e ->
  block_text ualnum (S level) child s -> block_said (S level) child s ->
  nested_texts ualnum level l rest -> nested_said level l rest ->
  nested_said level ((seg, child) :: l) (margin level ++ w ++ e ++ s ++ rest).
Proof.
  intros Hs He Hb IHb Hr IHr tail fuel Hl Ht Hf. rewrite <- !app_assoc in *.
  assert (Hbr : before (S level) (rest ++ tail)).
  { eapply before_nested; [|exact Hr|eapply before_mono; [|exact Ht]]; lia. }
  assert (Hw : length w > 0).
  { destruct (segment_start seg w [] Hs) as (c & t & E & _). rewrite app_nil_r in E. rewrite E. simpl. lia. }
  assert (Hlen : length (s ++ rest ++ tail) < fuel).
  { rewrite app_length, (app_length w), (app_length e) in Hf. lia. }
  assert (H1 : nested_of fuel level (margin level ++ w ++ e ++ s ++ rest ++ tail) = POk (rest ++ tail) (seg, child)).
  { unfold nested_of, nested_body_p, pbind at 1. rewrite (segment_says level seg) by assumption. unfold pbind at 1.
    destruct (endings_says (S (S level)) e (s ++ rest ++ tail) He) as [u Eu].
    { eapply before_block; [|exact Hb|eapply before_mono; [|exact Hbr]]; lia. }
    rewrite Eu. unfold pbind, return_error. rewrite (IHb (rest ++ tail) fuel); [reflexivity|lia|exact Hbr|exact Hlen]. }
  assert (Hrl : length (rest ++ tail) < fuel) by (rewrite app_length in Hlen; lia).
  destruct (IHr tail fuel Hl Ht ltac:(lia)) as [IH0 _]. split.
  - intros [|n] Hn; [lia|]. cbn [many0_aux]. rewrite H1.
    destruct (str_eqb_spec (rest ++ tail) (margin level ++ w ++ e ++ s ++ rest ++ tail)) as [E|_].
    { apply (f_equal (@length N)) in E. rewrite !app_length in E. lia. }
    rewrite IH0; [reflexivity|]. rewrite !app_length in *. lia.
  - intros _. unfold many1, pbind at 1. rewrite H1. unfold pbind, many0. rewrite IH0 by lia. reflexivity.
Qed.
Lemma block_intro_said level rs ch q s1 s2 s3 : rs <> [] \/ ch <> [] ->
  texts (query_text ualnum level) q s1 -> texts (resource_text ualnum level) rs s2 ->
  nested_texts ualnum level ch s3 -> nested_said level ch s3 -> block_said level (mkRoutes rs ch q) (s1 ++ s2 ++ s3).
Proof.
  intros Hne Hq Hr Hc IH tail fuel Hl Ht Hf. destruct fuel as [|fuel]; [lia|]. cbn [routes_p]. rewrite <- !app_assoc in *.
  assert (Ht2 : before (S level) tail) by (eapply before_mono; [|exact Ht]; lia).
  assert (Hb3 : before (S level) (s3 ++ tail)) by (eapply before_nested; [|exact Hc|exact Ht2]; lia).
  assert (Hb2 : before (S level) (s2 ++ s3 ++ tail)) by (eapply before_texts; [|apply resource_at|exact Hr|exact Hb3]; lia).
  unfold routes_body_p, pbind at 1. rewrite (queries_says level (many1 line_ending) q).
  2: { intros n e tl He Htl. eapply endings_says; eauto. }
  2: exact Hq.
  2: exact Hb2.
  2: eapply no_query; eassumption.
  assert (Hlen : length (s3 ++ tail) <= fuel) by (rewrite app_length, (app_length s2) in Hf; lia).
  destruct (IH tail fuel Hl Ht Hlen) as [_ IH1]. fold (nested_of fuel) in *.
  unfold pbind, resources_and_routes_p, return_error, alt.
  change (nested_body_p ualnum (routes_p ualnum fuel) level) with (nested_of fuel level).
  assert (Hno : resource_p ualnum level (s3 ++ tail) = PErr).
  { destruct Hc as [level|level seg child l w e s rest Hs He _ _]; [apply resource_short; assumption|].
    rewrite <- !app_assoc. eapply not_resource; eassumption. }
  destruct rs as [|r rs].
  - assert (Hch : ch <> []) by (destruct Hne; congruence). inversion Hr; subst. cbn [app].
    unfold pbind, many1 at 1, pbind. rewrite Hno. rewrite IH1 by exact Hch. reflexivity.
  - unfold pbind. rewrite (many1_texts (resource_p ualnum level) (resource_text ualnum level) (s3 ++ tail) Hno) with (xs := r :: rs);
      [|intros x xs s rest Hx Hxs|exact Hr|discriminate].
    2: { split; [|apply (line_at_ne level); eapply resource_at; exact Hx]. apply resource_says; [exact Hx|].
         eapply before_texts; [|apply resource_at|exact Hxs|exact Hb3]. lia. }
    destruct (endings0_ok (S level) (s3 ++ tail) Hb3) as [u Eu]. rewrite Eu.
    destruct ch as [|nr ch].
    + inversion Hc; subst. cbn [app]. unfold many1, pbind. rewrite nested_none by assumption. reflexivity.
    + rewrite IH1 by discriminate. reflexivity.
Qed.
Lemma block_says level b s : block_text ualnum level b s -> block_said level b s.
Proof.
  intros H. induction H using block_text_mut with (P0 := fun level l s _ => nested_said level l s).
  - apply block_intro_said; assumption.
  - intros tail fuel Hl Ht Hf. cbn [app] in *. split; [|congruence]. intros [|n] Hn; [lia|]. cbn [many0_aux].
    rewrite nested_none by assumption. reflexivity.
  - apply nested_cons_said; assumption.
Qed.
(** *** The whole file *)
Lemma header_says h e u : wf_header h -> newlines e -> header_p (h_text h ++ e ++ u) = POk (skip u) h.
Proof.
  intros (H1 & H2 & H3 & H4) He.
  assert (Ht : header_text (h_text h ++ e ++ u) = POk (e ++ u) (h_text h)).
  { rewrite header_text_eq. destruct (h_text h) as [|x t] eqn:E; [congruence|]. cbn [app].
    destruct (N.eqb_spec x c_slash) as [->|_]; [exfalso; apply H4; reflexivity|].
    change (x :: t ++ e ++ u) with ((x :: t) ++ e ++ u). unfold not_line_ending. rewrite span_stop.
    - destruct (newlines_head e He) as (c & e' & -> & [->|(-> & e'' & ->)]); reflexivity.
    - apply Forall_forall. intros c Hc. unfold is_line_char. apply negb_true_iff, orb_false_iff.
      split; apply N.eqb_neq; intros ->; contradiction.
    - intros c Hc. destruct (newlines_head e He) as (d & e' & -> & [->|(-> & _)]); injection Hc as <-; reflexivity. }
  rewrite header_eq. unfold pbind at 1. rewrite Ht. unfold pbind.
  destruct (endings1_skip (e ++ u)) as [l El].
  - destruct (newlines_head e He) as (d & e' & -> & [->|(-> & e'' & ->)]); discriminate.
  - rewrite El, skip_newlines by exact He. destruct h. reflexivity.
Qed.
Lemma headers_skip hs s u : texts header_line hs s -> skip (s ++ c_slash :: u) = s ++ c_slash :: u.
Proof.
  intros H. destruct H as [|h hs v rest [h' e Hh He] _]; [reflexivity|]. rewrite <- !app_assoc. apply skip_header. exact Hh.
Qed.
Lemma headers_says u : forall hs s, texts header_line hs s -> forall n, length (s ++ c_slash :: u) < n ->
  many0_aux n header_p (s ++ c_slash :: u) = POk (c_slash :: u) hs.
Proof.
  intros hs s H. induction H as [|h hs v rest Hv H IH]; intros [|n] Hn; try lia; cbn [many0_aux].
  - assert (E : header_p (c_slash :: u) = PErr) by (rewrite header_eq; unfold pbind; rewrite header_text_eq; reflexivity).
    cbn [app]. rewrite E. reflexivity.
  - destruct Hv as [h e Hh He]. rewrite <- !app_assoc in *. rewrite header_says by assumption. rewrite (headers_skip hs) by exact H.
    destruct (str_eqb_spec (rest ++ c_slash :: u) (h_text h ++ e ++ rest ++ c_slash :: u)) as [E|_].
    { rewrite app_assoc in E. apply app_self in E. apply app_eq_nil in E. destruct E as [E _]. destruct Hh. contradiction. }
    rewrite IH; [reflexivity|]. rewrite app_length, (app_length e) in Hn. destruct Hh as [Hh _].
    destruct (h_text h); [congruence|]. simpl in Hn. lia.
Qed.
Lemma parse_complete i c : config_text ualnum c i -> route_config_p ualnum i = POk [] c.
Proof.
  intros H. destruct H as [hs b e0 s e w He0 Hs He Hw].
  assert (H : route_config_p ualnum (s ++ lit "/" ++ e ++ w) = POk [] (mkConfig hs b)).
  { rewrite route_config_body. unfold config_body, pbind at 1. change (lit "/" ++ e ++ w) with (c_slash :: e ++ w).
    unfold many0 at 1. rewrite (headers_says (e ++ w) hs s Hs) by lia. unfold pbind at 1.
    destruct (endings0_skip (c_slash :: e ++ w)) as [l El]. rewrite El. change (skip (c_slash :: e ++ w)) with (c_slash :: e ++ w).
    unfold pbind at 1. cbn [pchar]. rewrite N.eqb_refl. unfold pbind at 1.
    destruct (endings_says 2 e w He) as [l' El'].
    { rewrite <- (app_nil_r w). eapply before_block; [|exact Hw|left; reflexivity]. lia. }
    rewrite El'. unfold pbind at 1.
    pose proof (block_says 1 b w Hw [] (S (length (s ++ c_slash :: e ++ w)))) as Hr. rewrite app_nil_r in Hr. rewrite Hr.
    - unfold pbind. cbn [eof]. unfold pret. f_equal. f_equal. unfold retain_headers. clear -Hs.
      induction Hs as [|h hs v rest [h' e [Hh _] _] _ IH]; [reflexivity|]. cbn [filter].
      destruct (Nat.eqb_spec (length (h_text h')) 0) as [E|_]; [apply length_zero_iff_nil in E; congruence|].
      cbn [negb]. rewrite IH. reflexivity.
    - lia.
    - left. reflexivity.
    - rewrite app_length. simpl. rewrite app_length. lia. }
  destruct He0 as [->|He0]; [exact H|]. apply parse_leading; assumption.
Qed.
Lemma parse_exact i c : route_config_p ualnum i = POk [] c <-> config_text ualnum c i.
Proof. split; [apply parse_sound|apply parse_complete]. Qed.
End Parse.
Lemma parse_rejects ualnum i :
  (route_config_p ualnum i = PErr \/ route_config_p ualnum i = PFail) <-> ~ exists c, config_text ualnum c i.
Proof.
  split.
  - intros H (c & Hc). apply parse_exact in Hc. destruct H; congruence.
  - intros H. pose proof (parse_total ualnum i) as Hf. destruct (route_config_p ualnum i) as [r c| | |] eqn:E; auto; [|congruence].
    exfalso. apply H. exists c. apply parse_exact. apply parse_reads in E as E2. destruct E2 as [-> _]. exact E.
Qed.
Lemma text_unique ualnum i c c' : config_text ualnum c i -> config_text ualnum c' i -> c = c'.
Proof. intros H H'. apply parse_exact in H. apply parse_exact in H'. congruence. Qed.

(** ** Every well-formed configuration has a text *)
Section Write.
Variable ualnum : char -> bool.
Lemma lf : newlines [c_nl].
Proof. constructor. constructor. Qed.
Lemma no_blanks : blanks [].
Proof. constructor. Qed.
Lemma texts_exist {A} (P : A -> str -> Prop) (Q : A -> Prop) l : (forall x, Q x -> exists s, P x s) -> Forall Q l -> exists s, texts P l s.
Proof.
  intros H. induction 1 as [|x l Hx _ [s IH]]; [exists []; constructor|]. destruct (H x Hx) as [t Ht]. exists (t ++ s). constructor; assumption.
Qed.
Lemma param_exists p : wf_param ualnum p -> exists s, param_text ualnum p s.
Proof. destruct p as [n t]. intros [Hn Ht]. eexists. exact (param_text_intro ualnum n [] [] t Hn no_blanks no_blanks Ht). Qed.
Lemma query_exists level p : wf_param ualnum p -> exists s, query_text ualnum level p s.
Proof.
  intros Hp. destruct (param_exists p Hp) as [w Hw]. eexists. exact (query_text_intro ualnum level p [] w [] _ no_blanks Hw no_blanks lf).
Qed.
Lemma path_exists ms n : Forall (ident ualnum) ms -> ident ualnum n -> exists s, path_text ualnum ms n s.
Proof.
  intros H Hn. induction H as [|m ms Hm _ [w IH]]; [exists n; constructor; exact Hn|].
  eexists. exact (path_text_step ualnum m ms n [] [] w Hm no_blanks no_blanks IH).
Qed.
Lemma target_exists d ms n : Forall (ident ualnum) ms -> ident ualnum n -> exists s, target_text ualnum d ms n s.
Proof.
  intros H Hn. destruct (path_exists ms n H Hn) as [w Hw]. destruct d.
  - eexists. exact (redirect_text ualnum ms n [] [] w no_blanks no_blanks Hw).
  - exists w. constructor. exact Hw.
Qed.
Lemma resource_exists level r : wf_resource ualnum r -> exists s, resource_text ualnum level r s.
Proof.
  destruct r as [m ms n d query]. intros (Hm & Hn & Hq). destruct (target_exists d ms n Hm Hn) as [w Hw].
  destruct (texts_exist (query_text ualnum (S level)) (wf_param ualnum) query (query_exists (S level)) Hq) as [s Hs].
  eexists. exact (resource_text_intro ualnum level m ms n d query (method_display m) w _ s eq_refl Hw lf Hs).
Qed.
Lemma segment_exists seg : wf_segment ualnum seg -> exists s, segment_text ualnum seg s.
Proof.
  destruct seg as [t|p]; intros H; [exists t; constructor; exact H|]. destruct (param_exists p H) as [w Hw].
  eexists. exact (dynamic_text ualnum p [] w [] no_blanks Hw no_blanks).
Qed.
Lemma block_exists b : every_block (wf_block ualnum) b -> forall level, exists s, block_text ualnum level b s.
Proof.
  induction b as [rs ch q IH] using Routes_ind'. intros H level. apply every_block_cons in H. destruct H as [(Hne & Hr & Hs & Hq) Hc].
  cbn [rt_resources rt_routes rt_query] in *.
  destruct (texts_exist (query_text ualnum level) (wf_param ualnum) q (query_exists level) Hq) as [s1 H1].
  destruct (texts_exist (resource_text ualnum level) (wf_resource ualnum) rs (resource_exists level) Hr) as [s2 H2].
  assert (H3 : exists s3, nested_texts ualnum level ch s3).
  { clear Hne H1 H2. induction ch as [|[seg child] ch IHch]; [exists []; constructor|].
    inversion IH as [|? ? IHc IHr]; subst. inversion Hs as [|? ? Hseg Hs']; subst. 
    cbn [fst snd] in *. destruct (IHch IHr Hs' (fun seg' child' H => Hc seg' child' (or_intror H))) as [s3 H3]. destruct (segment_exists seg Hseg) as [w Hw].
    destruct (IHc (Hc seg child (or_introl eq_refl)) (S level)) as [s Hb]. eexists. exact (nested_texts_cons ualnum level seg child ch w _ s s3 Hw lf Hb H3). }
  destruct H3 as [s3 H3]. eexists. exact (block_text_intro ualnum level rs ch q s1 s2 s3 Hne H1 H2 H3).
Qed.
Lemma config_exists c : wf_config ualnum c -> exists text, config_text ualnum c text.
Proof.
  destruct c as [hs b]. intros [Hh Hb]. cbn [c_headers c_routes] in *.
  destruct (texts_exist (header_line) wf_header hs (fun h Hw => ex_intro _ _ (header_line_intro h _ Hw lf)) Hh) as [s Hs].
  destruct (block_exists b Hb 1) as [w Hw]. eexists. exact (config_text_intro ualnum hs b [] s _ w (or_introl eq_refl) Hs lf Hw).
Qed.
Lemma config_writable c : wf_config ualnum c <-> exists text, route_config_p ualnum text = POk [] c.
Proof.
  split.
  - intros H. destruct (config_exists c H) as [text Ht]. exists text. apply parse_exact. exact Ht.
  - intros [text H]. exact (proj1 (proj2 (parse_reads ualnum text [] c H))).
Qed.
End Write.
