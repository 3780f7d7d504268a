(** * RelineFacts: the parser does not see the form of line breaks *)
From Verif Require Import Base Core Nom Parse Spec SpecMatch SpecParse BaseFacts ParseFacts.

Lemma newlines_head e : newlines e ->
  exists c e', e = c :: e' /\ (c = c_nl \/ c = c_cr /\ exists e'', e' = c_nl :: e'').
Proof.
  destruct 1 as [e [|]|e es [|] _]; cbn [app]; eauto 8.
Qed.

(** ** Simulation *)
(** Results on related inputs.  Running out of fuel is related to anything. *)
Definition same {A B} (V : A -> B -> Prop) (x : pres A) (y : pres B) : Prop :=
  match x, y with
  | POk r a, POk r' b => relined r r' /\ V a b
  | PErr, PErr | PFail, PFail => True
  | PFuel, _ | _, PFuel => True
  | _, _ => False
  end.
Definition sim {A B} (V : A -> B -> Prop) (p : parser A) (q : parser B) : Prop :=
  forall i i', relined i i' -> same V (p i) (q i').

Lemma sim_bind {A B A' B'} (V : A -> B -> Prop) (W : A' -> B' -> Prop) p q f g :
  sim V p q -> (forall a b, V a b -> sim W (f a) (g b)) -> sim W (pbind p f) (pbind q g).
Proof.
  intros Hp Hf i i' Hi. specialize (Hp i i' Hi). unfold pbind.
  destruct (p i) as [r a| | |], (q i') as [r' b| | |]; cbn [same] in *; try contradiction; auto.
  - destruct Hp as [Hr Hv]. exact (Hf a b Hv r r' Hr).
  - destruct (f a r); exact I.
Qed.
Lemma sim_ret {A B} (V : A -> B -> Prop) a b : V a b -> sim V (pret a) (pret b).
Proof. intros Hv i i' Hi. split; assumption. Qed.
Lemma sim_alt {A B} (V : A -> B -> Prop) p q p' q' : sim V p p' -> sim V q q' -> sim V (alt p q) (alt p' q').
Proof.
  intros Hp Hq i i' Hi. specialize (Hp i i' Hi). specialize (Hq i i' Hi). unfold alt.
  destruct (p i) as [r a| | |], (p' i') as [r' b| | |]; cbn [same] in *; try contradiction; auto.
  destruct (q i); exact I.
Qed.
Lemma sim_error {A B} (V : A -> B -> Prop) p q : sim V p q -> sim V (return_error p) (return_error q).
Proof.
  intros Hp i i' Hi. specialize (Hp i i' Hi). unfold return_error.
  destruct (p i) as [r a| | |], (q i') as [r' b| | |]; cbn [same] in *; try contradiction; auto.
Qed.
Lemma sim_many0 {A B} (V : A -> B -> Prop) p q : eats p -> eats q -> sim V p q ->
  sim (Forall2 V) (many0 p) (many0 q).
Proof.
  intros Ep Eq Hp.
  assert (H : forall n n', sim (Forall2 V) (many0_aux n p) (many0_aux n' q)).
  { induction n as [|n IH]; intros n' i i' Hi; [exact I|].
    destruct n' as [|n']; [destruct (many0_aux (S n) p i); exact I|].
    cbn [many0_aux]. specialize (Hp i i' Hi). specialize (Ep i). specialize (Eq i').
    destruct (p i) as [r a| | |], (q i') as [r' b| | |]; cbn [same] in Hp; try contradiction; try exact I.
    - destruct Hp as [Hr Hv]. specialize (Ep _ _ eq_refl). specialize (Eq _ _ eq_refl).
      destruct (str_eqb_spec r i) as [->|_]; [lia|]. destruct (str_eqb_spec r' i') as [->|_]; [lia|].
      specialize (IH n' r r' Hr).
      destruct (many0_aux n p r) as [? ?| | |], (many0_aux n' q r') as [? ?| | |]; cbn [same] in *;
        try contradiction; auto. destruct IH. split; auto.
    - destruct (str_eqb r i); [exact I|]. destruct (many0_aux n p r); exact I.
    - split; [exact Hi|constructor]. }
  intros i i' Hi. apply H. exact Hi.
Qed.
Lemma sim_many1 {A B} (V : A -> B -> Prop) p q : eats p -> eats q -> sim V p q ->
  sim (Forall2 V) (many1 p) (many1 q).
Proof.
  intros Ep Eq Hp. unfold many1. eapply sim_bind; [exact Hp|]. intros a b Hv.
  eapply sim_bind; [exact (sim_many0 V p q Ep Eq Hp)|]. intros l l' Hl. apply sim_ret. constructor; assumption.
Qed.
Lemma Forall2_eq {A} (l l' : list A) : Forall2 eq l l' -> l = l'.
Proof. induction 1; congruence. Qed.
Lemma sim_many0_eq {A} (p q : parser A) : eats p -> eats q -> sim eq p q -> sim eq (many0 p) (many0 q).
Proof.
  intros Ep Eq Hp i i' Hi. pose proof (sim_many0 eq p q Ep Eq Hp i i' Hi) as H.
  destruct (many0 p i), (many0 q i'); cbn [same] in *; auto. destruct H. split; [assumption|]. apply Forall2_eq. assumption.
Qed.
Lemma sim_many1_eq {A} (p q : parser A) : eats p -> eats q -> sim eq p q -> sim eq (many1 p) (many1 q).
Proof.
  intros Ep Eq Hp i i' Hi. pose proof (sim_many1 eq p q Ep Eq Hp i i' Hi) as H.
  destruct (many1 p i), (many1 q i'); cbn [same] in *; auto. destruct H. split; [assumption|]. apply Forall2_eq. assumption.
Qed.

(** ** Primitives *)
Definition plain (t : str) : Prop := Forall (fun c => c <> c_nl /\ c <> c_cr) t.
Lemma prefix_sim t : plain t -> forall i i', relined i i' ->
  (is_prefix t i = is_prefix t i') /\
  (is_prefix t i = true -> relined (skipn (length t) i) (skipn (length t) i')).
Proof.
  induction 1 as [|x t [Hx1 Hx2] _ IH]; intros i i' Hi.
  { split; [reflexivity|]. intros _. exact Hi. }
  destruct Hi as [|c s s' Hc1 Hc2 Hs|s s' Hs1 Hs2 Hs|e e' s s' He He' Hs].
  - split; [reflexivity|discriminate].
  - destruct (IH _ _ Hs) as [H1 H2]. cbn [is_prefix length skipn]. rewrite H1. split; [reflexivity|].
    intros H. apply andb_true_iff in H. apply H2. rewrite H1. apply H.
  - cbn [is_prefix]. destruct (N.eqb_spec x c_cr); [congruence|]. split; [reflexivity|discriminate].
  - apply newlines_head in He, He'. destruct He as (c & u & -> & He), He' as (c' & u' & -> & He').
    assert (Hn : N.eqb x c = false /\ N.eqb x c' = false).
    { split; apply N.eqb_neq; intuition congruence. }
    destruct Hn as [Hn Hn']. cbn [app is_prefix]. rewrite Hn, Hn'. split; [reflexivity|discriminate].
Qed.
Lemma sim_tag t : plain t -> sim eq (tag t) (tag t).
Proof.
  intros Ht i i' Hi. unfold tag. destruct (prefix_sim t Ht i i' Hi) as [H1 H2]. rewrite <- H1.
  destruct (is_prefix t i); [|exact I]. split; auto.
Qed.
Lemma no_case_sim t : plain (map to_lower t) -> forall i i', relined i i' ->
  (is_prefix_no_case t i = is_prefix_no_case t i') /\
  (is_prefix_no_case t i = true -> relined (skipn (length t) i) (skipn (length t) i')).
Proof.
  unfold plain. induction t as [|x t IH]; intros Ht i i' Hi.
  { split; [reflexivity|]. intros _. exact Hi. }
  cbn [map] in Ht. inversion Ht as [|? ? [Hx1 Hx2] Ht']; subst.
  assert (Hnl : to_lower c_nl = c_nl) by reflexivity. assert (Hcr : to_lower c_cr = c_cr) by reflexivity.
  destruct Hi as [|c s s' Hc1 Hc2 Hs|s s' Hs1 Hs2 Hs|e e' s s' He He' Hs].
  - split; [reflexivity|discriminate].
  - destruct (IH Ht' _ _ Hs) as [H1 H2]. cbn [is_prefix_no_case length skipn]. rewrite H1. split; [reflexivity|].
    intros H. apply andb_true_iff in H. apply H2. rewrite H1. apply H.
  - cbn [is_prefix_no_case]. rewrite Hcr. destruct (N.eqb_spec (to_lower x) c_cr); [congruence|].
    split; [reflexivity|discriminate].
  - apply newlines_head in He, He'. destruct He as (c & u & -> & He), He' as (c' & u' & -> & He').
    assert (Hn : N.eqb (to_lower x) (to_lower c) = false /\ N.eqb (to_lower x) (to_lower c') = false).
    { split; apply N.eqb_neq; [destruct He as [->|[-> _]]|destruct He' as [->|[-> _]]]; congruence. }
    destruct Hn as [Hn Hn']. cbn [app is_prefix_no_case]. rewrite Hn, Hn'. split; [reflexivity|discriminate].
Qed.
Lemma sim_no_case t : plain (map to_lower t) -> sim eq (tag_no_case t) (tag_no_case t).
Proof.
  intros Ht i i' Hi. unfold tag_no_case. destruct (no_case_sim t Ht i i' Hi) as [H1 H2]. rewrite <- H1.
  destruct (is_prefix_no_case t i); [|exact I]. split; auto.
Qed.
Lemma sim_char c : c <> c_nl -> c <> c_cr -> sim eq (pchar c) (pchar c).
Proof.
  intros H1 H2 i i' Hi. pose proof (sim_tag [c]) as H. unfold tag in H.
  assert (Heq : forall s, pchar c s = if is_prefix [c] s then POk (skipn (length [c]) s) tt else PErr).
  { intros [|x s]; [reflexivity|]. cbn [pchar is_prefix length skipn]. rewrite andb_true_r, N.eqb_sym. reflexivity. }
  rewrite !Heq. apply H; [repeat constructor; auto|exact Hi].
Qed.
(** Up to a character that ends a line, or one that is not white space. *)
Lemma span_line f : f c_nl = false -> f c_cr = false -> forall i i', relined i i' ->
  fst (span f i) = fst (span f i') /\ relined (snd (span f i)) (snd (span f i')).
Proof.
  intros Hnl Hcr i i'. induction 1 as [|c s s' Hc1 Hc2 Hs IH|s s' Hs1 Hs2 Hs IH|e e' s s' He He' Hs IH].
  - split; [reflexivity|constructor].
  - cbn [span]. destruct (f c).
    + destruct (span f s), (span f s'). cbn [fst snd] in *. destruct IH as [-> IH]. auto.
    + split; [reflexivity|]. cbn [snd]. apply relined_char; assumption.
  - cbn [span]. rewrite Hcr. split; [reflexivity|]. cbn [snd]. apply relined_cr; assumption.
  - pose proof (relined_break e e' s s' He He' Hs) as Hb.
    apply newlines_head in He, He'. destruct He as (c & u & -> & He), He' as (c' & u' & -> & He').
    assert (Hn : f c = false /\ f c' = false).
    { split; [destruct He as [->|[-> _]]|destruct He' as [->|[-> _]]]; assumption. }
    destruct Hn as [Hn Hn']. cbn [app] in *. cbn [span]. rewrite Hn, Hn'. auto.
Qed.
Lemma sim_take f : f c_nl = false -> f c_cr = false -> sim eq (take_while1 f) (take_while1 f).
Proof.
  intros Hnl Hcr i i' Hi. unfold take_while1. destruct (span_line f Hnl Hcr i i' Hi) as [H1 H2].
  destruct (span f i) as [a r], (span f i') as [a' r']. cbn [fst snd] in *. subst a'.
  destruct a; [exact I|]. split; auto.
Qed.
Lemma span_spaces w s : spaces w -> snd (span is_sp (w ++ s)) = snd (span is_sp s).
Proof.
  induction 1 as [|c w Hc _ IH]; [reflexivity|]. cbn [app span]. rewrite Hc.
  destruct (span is_sp (w ++ s)). exact IH.
Qed.
Lemma sim_sp : sim eq sp sp.
Proof.
  intros i i' Hi. unfold sp. split; [|reflexivity].
  induction Hi as [|c s s' Hc1 Hc2 Hs IH|s s' Hs1 Hs2 Hs IH|e e' s s' He He' Hs IH].
  - constructor.
  - cbn [span]. destruct (is_sp c).
    + destruct (span is_sp s), (span is_sp s'). exact IH.
    + cbn [snd]. apply relined_char; assumption.
  - change (c_cr :: s) with ([c_cr] ++ s). change (c_cr :: s') with ([c_cr] ++ s').
    rewrite !span_spaces by (repeat constructor). exact IH.
  - rewrite !span_spaces by (apply newlines_spaces; assumption). exact IH.
Qed.
Lemma sim_ws {A B} (V : A -> B -> Prop) p q : sim V p q -> sim V (ws p) (ws q).
Proof.
  intros Hp. unfold ws. eapply sim_bind; [apply sim_sp|]. intros _ _ _. eapply sim_bind; [exact Hp|].
  intros a b Hv. eapply sim_bind; [apply sim_sp|]. intros _ _ _. apply sim_ret. exact Hv.
Qed.
(** Line breaks. *)
Fixpoint skip (i : str) : str :=
  match i with
  | x :: i' =>
      if N.eqb x c_nl then skip i'
      else if N.eqb x c_cr then
        match i' with
        | y :: i'' => if N.eqb y c_nl then skip i'' else i
        | [] => i
        end
      else i
  | [] => []
  end.
Lemma ending_skip i r u : line_ending i = POk r u -> skip i = skip r /\ length r < length i.
Proof.
  destruct i as [|x i]; [discriminate|]. cbn [line_ending skip].
  destruct (N.eqb x c_nl); [intros [= -> _]; simpl; auto|]. destruct (N.eqb x c_cr); [|discriminate].
  destruct i as [|y i]; [discriminate|]. destruct (N.eqb y c_nl); [intros [= -> _]; simpl; auto|discriminate].
Qed.
Lemma no_ending_skip i : line_ending i = PErr -> skip i = i.
Proof.
  destruct i as [|x i]; [reflexivity|]. cbn [line_ending skip]. destruct (N.eqb x c_nl); [discriminate|].
  destruct (N.eqb x c_cr); [|reflexivity]. destruct i as [|y i]; [reflexivity|].
  destruct (N.eqb y c_nl); [discriminate|reflexivity].
Qed.
Lemma ending_cases i : (exists r, line_ending i = POk r tt) \/ line_ending i = PErr.
Proof.
  destruct i as [|x i]; [auto|]. cbn [line_ending]. destruct (N.eqb x c_nl); [eauto|].
  destruct (N.eqb x c_cr); [|auto]. destruct i as [|y i]; [auto|]. destruct (N.eqb y c_nl); eauto.
Qed.
Lemma endings0_skip i : exists l, many0 line_ending i = POk (skip i) l.
Proof.
  unfold many0. assert (H : forall n i, length i < n -> exists l, many0_aux n line_ending i = POk (skip i) l);
    [|apply H; lia].
  clear i. induction n as [|n IH]; intros i Hn; [lia|]. cbn [many0_aux]. destruct (ending_cases i) as [[r E]|E]; rewrite E.
  - destruct (ending_skip _ _ _ E) as [Hs Hl]. destruct (str_eqb_spec r i) as [->|_]; [lia|].
    destruct (IH r) as [l Hr]; [lia|]. rewrite Hr, Hs. eauto.
  - rewrite no_ending_skip by exact E. eauto.
Qed.
Lemma endings1_skip i : line_ending i <> PErr -> exists l, many1 line_ending i = POk (skip i) l.
Proof.
  intros H. unfold many1, pbind. destruct (ending_cases i) as [[r E]|E]; [|congruence]. rewrite E.
  destruct (ending_skip _ _ _ E) as [-> _]. destruct (endings0_skip r) as [l Hl]. rewrite Hl. unfold pret. eauto.
Qed.
Lemma skip_newlines e s : newlines e -> skip (e ++ s) = skip s.
Proof.
  assert (H : forall e s, newline e -> skip (e ++ s) = skip s) by (destruct 1; reflexivity).
  induction 1 as [e He|e es He _ IH]; [apply H; exact He|]. rewrite <- app_assoc, H by exact He. exact IH.
Qed.
Lemma relined_skip i i' : relined i i' -> relined (skip i) (skip i').
Proof.
  induction 1 as [|c s s' Hc1 Hc2 Hs IH|s s' Hs1 Hs2 Hs IH|e e' s s' He He' Hs IH].
  - constructor.
  - cbn [skip]. apply N.eqb_neq in Hc1 as E1. apply N.eqb_neq in Hc2 as E2. rewrite E1, E2. apply relined_char; assumption.
  - assert (H : forall s, hd_error s <> Some c_nl -> skip (c_cr :: s) = c_cr :: s).
    { intros [|y u] Hu; [reflexivity|]. cbn [skip]. rewrite N.eqb_refl. cbn [N.eqb c_nl c_cr].
      destruct (N.eqb_spec y c_nl) as [->|_]; [cbn in Hu; congruence|reflexivity]. }
    rewrite !H by assumption. apply relined_cr; assumption.
  - rewrite !skip_newlines by assumption. exact IH.
Qed.
Lemma ending_sim i i' : relined i i' -> (line_ending i = PErr <-> line_ending i' = PErr).
Proof.
  destruct 1 as [|c s s' Hc1 Hc2 Hs|s s' Hs1 Hs2 Hs|e e' s s' He He' Hs].
  - tauto.
  - cbn [line_ending]. apply N.eqb_neq in Hc1. apply N.eqb_neq in Hc2. rewrite Hc1, Hc2. tauto.
  - assert (H : forall s, hd_error s <> Some c_nl -> line_ending (c_cr :: s) = PErr).
    { intros [|y u] Hu; [reflexivity|]. cbn [line_ending]. change (N.eqb c_cr c_nl) with false. rewrite N.eqb_refl.
      destruct (N.eqb_spec y c_nl) as [->|_]; [cbn in Hu; congruence|reflexivity]. }
    rewrite !H by assumption. tauto.
  - assert (H : forall e s, newlines e -> line_ending (e ++ s) <> PErr).
    { intros f u Hf. apply newlines_head in Hf. destruct Hf as (c & v & -> & [->|[-> [w ->]]]); discriminate. }
    pose proof (H e s He). pose proof (H e' s' He'). tauto.
Qed.
Definition any {A B} (a : A) (b : B) : Prop := True.
Lemma sim_endings0 : sim any (many0 line_ending) (many0 line_ending).
Proof.
  intros i i' Hi. destruct (endings0_skip i) as [l ->], (endings0_skip i') as [l' ->].
  split; [apply relined_skip; exact Hi|exact I].
Qed.
Lemma sim_endings1 : sim any (many1 line_ending) (many1 line_ending).
Proof.
  intros i i' Hi. pose proof (ending_sim i i' Hi) as H.
  destruct (ending_cases i) as [[r E]|E].
  - destruct (endings1_skip i) as [l ->]; [congruence|]. destruct (endings1_skip i') as [l' ->].
    { intros E'. apply H in E'. congruence. }
    split; [apply relined_skip; exact Hi|exact I].
  - apply H in E as E'. unfold many1, pbind. rewrite E, E'. exact I.
Qed.
Lemma sim_eof : sim eq eof eof.
Proof.
  intros i i' Hi. destruct Hi as [|c s s' Hc1 Hc2 Hs|s s' Hs1 Hs2 Hs|e e' s s' He He' Hs].
  - split; [constructor|reflexivity].
  - exact I.
  - exact I.
  - apply newlines_head in He, He'. destruct He as (c & u & -> & _), He' as (c' & u' & -> & _). exact I.
Qed.
Lemma sim_line : sim eq not_line_ending not_line_ending.
Proof.
  intros i i' Hi. unfold not_line_ending. destruct (span_line is_line_char eq_refl eq_refl i i' Hi) as [H1 H2].
  pose proof (span_spec is_line_char i) as (_ & _ & Hs).
  destruct (span is_line_char i) as [a r], (span is_line_char i') as [a' r']. cbn [fst snd] in *. subst a'.
  assert (Hall := H2).
  destruct H2 as [|c s s' Hc1 Hc2 Hss|s s' Hs1 Hs2 Hss|e e' s s' He He' Hss].
  - split; [constructor|reflexivity].
  - specialize (Hs c eq_refl). unfold is_line_char in Hs. apply N.eqb_neq in Hc1. apply N.eqb_neq in Hc2.
    rewrite Hc1, Hc2 in Hs. discriminate.
  - rewrite N.eqb_refl.
    assert (H : forall s, hd_error s <> Some c_nl -> is_prefix [c_cr; c_nl] (c_cr :: s) = false).
    { intros [|y u] Hu; [reflexivity|]. cbn [is_prefix]. rewrite N.eqb_refl.
      destruct (N.eqb_spec c_nl y) as [<-|_]; [cbn in Hu; congruence|reflexivity]. }
    rewrite !H by assumption. exact I.
  - assert (H : forall e s, newlines e -> match e ++ s with
               | [] => POk [] a
               | x :: r => if N.eqb x c_cr then if is_prefix [c_cr; c_nl] (x :: r) then POk (x :: r) a else PErr else POk (x :: r) a
               end = POk (e ++ s) a).
    { intros f u Hf. apply newlines_head in Hf. destruct Hf as (c & v & -> & [->|[-> [w ->]]]); reflexivity. }
    rewrite !H by assumption. split; [exact Hall|reflexivity].
Qed.
Lemma sim_header_text : sim eq header_text header_text.
Proof.
  intros i i' Hi. rewrite !header_text_eq. pose proof (sim_line i i' Hi) as HL.
  assert (Hres : same eq (match not_line_ending i with POk r a => POk r a | _ => POk i [] end)
                         (match not_line_ending i' with POk r a => POk r a | _ => POk i' [] end)).
  { pose proof (line_spec i) as L. pose proof (line_spec i') as L'.
    destruct (not_line_ending i), (not_line_ending i'); cbn [same] in *; try contradiction; auto. }
  pose proof (sim_char c_slash) as Hc. specialize (Hc ltac:(discriminate) ltac:(discriminate) i i' Hi).
  destruct i as [|x i], i' as [|y i'].
  - split; [constructor|reflexivity].
  - inversion Hi as [| | |e e' s s' He He' Hs E1 E2]. apply newlines_head in He. destruct He as (c & u & -> & _). discriminate.
  - inversion Hi as [| | |e e' s s' He He' Hs E1 E2]. apply newlines_head in He'. destruct He' as (c & u & -> & _). discriminate.
  - cbn [pchar] in Hc. destruct (N.eqb x c_slash), (N.eqb y c_slash); cbn [same] in Hc; try contradiction; [exact I|].
    exact Hres.
Qed.

(** ** The grammar *)
Section Parse.
Variable ualnum : char -> bool.
Notation is_ident := (is_identifier_char ualnum).

Ltac plain_lit := repeat constructor; discriminate.
Lemma sim_ident : sim eq (take_while1 is_ident) (take_while1 is_ident).
Proof. apply sim_take; reflexivity. Qed.
Lemma sim_header : sim eq header_p header_p.
Proof.
  intros i i' Hi. rewrite !header_eq. revert i i' Hi. eapply sim_bind; [apply sim_header_text|]. intros t ? <-.
  eapply sim_bind; [apply sim_endings1|]. intros _ _ _. apply sim_ret. reflexivity.
Qed.
Lemma sim_method : sim eq method_p method_p.
Proof.
  unfold method_p. repeat apply sim_alt;
    (eapply sim_bind; [apply sim_no_case; plain_lit|intros _ _ _; apply sim_ret; reflexivity]).
Qed.
Lemma sim_param : sim eq (param_p ualnum) (param_p ualnum).
Proof.
  unfold param_p, colon_p. eapply sim_bind; [apply sim_ident|]. intros n ? <-. eapply sim_bind.
  - apply sim_ws, sim_error, sim_tag. plain_lit.
  - intros _ _ _. eapply sim_bind; [apply sim_ident|]. intros t ? <-. apply sim_ret. reflexivity.
Qed.
Lemma sim_indent level : sim eq (indent_p level) (indent_p level).
Proof.
  unfold indent_p. induction level as [|level IH]; [apply sim_ret; reflexivity|]. cbn [pcount].
  eapply sim_bind; [apply sim_tag; plain_lit|]. intros _ _ _. exact IH.
Qed.
Lemma sim_query level : sim eq (query_parameter_p ualnum level) (query_parameter_p ualnum level).
Proof.
  unfold query_parameter_p. eapply sim_bind; [apply sim_indent|]. intros _ _ _.
  eapply sim_bind; [apply sim_char; discriminate|]. intros _ _ _. eapply sim_bind; [apply sim_ws, sim_param|].
  intros p ? <-. eapply sim_bind; [apply sim_error, sim_char; discriminate|]. intros _ _ _. apply sim_ret. reflexivity.
Qed.
Lemma sim_segment level : sim eq (path_segment_p ualnum level) (path_segment_p ualnum level).
Proof.
  unfold path_segment_p. eapply sim_bind; [apply sim_indent|]. intros _ _ _. apply sim_alt.
  - eapply sim_bind; [apply sim_char; discriminate|]. intros _ _ _. eapply sim_bind; [apply sim_ws, sim_param|].
    intros p ? <-. eapply sim_bind; [apply sim_error, sim_char; discriminate|]. intros _ _ _. apply sim_ret. reflexivity.
  - eapply sim_bind; [apply sim_ident|]. intros t ? <-. apply sim_ret. reflexivity.
Qed.
Lemma sim_modules : sim eq (modules_p ualnum) (modules_p ualnum).
Proof.
  unfold modules_p.
  match goal with |- sim eq (many0 ?p) _ => assert (He : eats p) end.
  { eapply eats_reads; [eapply reads_bind; [apply reads_ident|intros ? ?; eapply reads_bind;
      [apply reads_ws, reads_tag|intros ? ?; apply reads_ret]]|].
    cbn beta. intros w a (w1 & ? & w2 & -> & (-> & [Hn _]) & _). intros E. apply app_eq_nil in E. tauto. }
  apply sim_many0_eq; [exact He|exact He|].
  eapply sim_bind; [apply sim_ident|]. intros m ? <-. eapply sim_bind; [apply sim_ws, sim_tag; plain_lit|].
  intros _ _ _. apply sim_ret. reflexivity.
Qed.
Lemma sim_target : sim eq (target_p ualnum) (target_p ualnum).
Proof.
  unfold target_p. apply sim_alt.
  - eapply sim_bind; [apply sim_ws, sim_tag; plain_lit|]. intros _ _ _.
    eapply sim_bind; [apply sim_modules|]. intros m ? <-. eapply sim_bind; [apply sim_ident|]. intros a ? <-.
    apply sim_ret. reflexivity.
  - eapply sim_bind; [apply sim_modules|]. intros m ? <-. eapply sim_bind; [apply sim_ident|]. intros a ? <-.
    apply sim_ret. reflexivity.
Qed.
Lemma sim_newline : sim eq require_newline require_newline.
Proof.
  unfold require_newline. apply sim_error. eapply sim_bind; [apply sim_endings1|]. intros _ _ _. apply sim_ret. reflexivity.
Qed.
Lemma eats_query_line {B} level (e : parser B) : reads e (fun w _ => newlines w) ->
  eats (do q <- query_parameter_p ualnum level; e ;; pret q).
Proof.
  intros He. eapply eats_reads; [apply (reads_query_line ualnum); [apply reads_query|exact He]|]. intros w a [H _]. exact H.
Qed.
Lemma sim_resource level : sim eq (resource_p ualnum level) (resource_p ualnum level).
Proof.
  unfold resource_p. eapply sim_bind; [apply sim_indent|]. intros _ _ _. eapply sim_bind; [apply sim_method|].
  intros m ? <-. eapply sim_bind; [apply sim_char; discriminate|]. intros _ _ _. eapply sim_bind; [apply sim_target|].
  intros t ? <-. eapply sim_bind; [apply sim_newline|]. intros _ _ _. eapply sim_bind.
  - apply sim_many0_eq; [apply eats_query_line, reads_newline|apply eats_query_line, reads_newline|].
    eapply sim_bind; [apply sim_query|]. intros q ? <-. eapply sim_bind; [apply sim_newline|]. intros _ _ _.
    apply sim_ret. reflexivity.
  - intros q ? <-. apply sim_ret. reflexivity.
Qed.
Lemma eats_resource level : eats (resource_p ualnum level).
Proof. eapply eats_reads; [apply reads_resource|]. intros w a [H _]. exact H. Qed.
Lemma eats_nested n level : eats (nested_body_p ualnum (routes_p ualnum n) level).
Proof. eapply eats_reads; [apply reads_nested, reads_routes|]. intros w a [H _]. exact H. Qed.
Lemma sim_routes : forall n n' level, sim eq (routes_p ualnum n level) (routes_p ualnum n' level).
Proof.
  induction n as [|n IH]; intros n' level i i' Hi; [exact I|].
  destruct n' as [|n']; [destruct (routes_p ualnum (S n) level i); exact I|].
  cbn [routes_p]. revert i i' Hi.
  assert (Hn : sim eq (nested_body_p ualnum (routes_p ualnum n) level) (nested_body_p ualnum (routes_p ualnum n') level)).
  { unfold nested_body_p. eapply sim_bind; [apply sim_segment|]. intros seg ? <-.
    eapply sim_bind; [apply sim_endings1|]. intros _ _ _. eapply sim_bind; [apply sim_error, IH|]. intros b ? <-.
    apply sim_ret. reflexivity. }
  unfold routes_body_p, resources_and_routes_p. eapply sim_bind.
  { apply sim_many0_eq; [apply eats_query_line, reads_endings|apply eats_query_line, reads_endings|].
    eapply sim_bind; [apply sim_query|]. intros q ? <-. eapply sim_bind; [apply sim_endings1|]. intros _ _ _.
    apply sim_ret. reflexivity. }
  intros q ? <-. eapply sim_bind; [|intros rnr ? <-; apply sim_ret; reflexivity].
  apply sim_error, sim_alt.
  - eapply sim_bind; [apply sim_many1_eq; [apply eats_resource|apply eats_resource|apply sim_resource]|]. intros rs ? <-.
    eapply sim_bind; [|intros ch ? <-; apply sim_ret; reflexivity].
    apply sim_alt; [|apply sim_ret; reflexivity]. eapply sim_bind; [apply sim_endings0|]. intros _ _ _.
    apply sim_many1_eq; [apply eats_nested|apply eats_nested|exact Hn].
  - eapply sim_bind; [apply sim_many1_eq; [apply eats_nested|apply eats_nested|exact Hn]|]. intros ch ? <-.
    apply sim_ret. reflexivity.
Qed.
Lemma eats_header : eats header_p.
Proof.
  assert (H : reads header_p (fun w _ => w <> [])).
  { intros i r a H. rewrite header_eq in H. revert i r a H.
    eapply reads_weaken; [|eapply reads_bind; [apply reads_header_text|intros ? ?; eapply reads_bind;
      [apply reads_endings|intros ? ?; apply reads_ret]]].
    cbn beta. intros w h (w1 & t & w' & -> & _ & w2 & ? & w3 & -> & Hn & _) E.
    apply newlines_head in Hn. destruct Hn as (c & u & -> & _). apply app_eq_nil in E. destruct E. discriminate. }
  eapply eats_reads; [exact H|]. auto.
Qed.
Lemma parse_relined i i' c : relined i i' -> route_config_p ualnum i = POk [] c -> route_config_p ualnum i' = POk [] c.
Proof.
  intros Hi H. assert (Hs : same eq (route_config_p ualnum i) (route_config_p ualnum i')).
  { rewrite !route_config_body. revert Hi. generalize (S (length i)) (S (length i')). intros n n'.
    revert i i' H. intros i i' _. revert i i'. unfold config_body.
    eapply sim_bind; [apply sim_many0_eq; [apply eats_header|apply eats_header|apply sim_header]|]. intros h ? <-.
    eapply sim_bind; [apply sim_endings0|]. intros _ _ _. eapply sim_bind; [apply sim_char; discriminate|]. intros _ _ _.
    eapply sim_bind; [apply sim_endings1|]. intros _ _ _. eapply sim_bind; [apply sim_routes|]. intros b ? <-.
    eapply sim_bind; [apply sim_eof|]. intros _ _ _. apply sim_ret. reflexivity. }
  pose proof (parse_total ualnum i') as Hf. rewrite H in Hs.
  destruct (route_config_p ualnum i') as [r' c'| | |] eqn:E; cbn [same] in Hs; try contradiction; try congruence.
  destruct Hs as [_ <-]. apply parse_reads in E as E2. destruct E2 as [-> _]. reflexivity.
Qed.
(** Hence rejection does not depend on the line breaks either. *)
Lemma relined_sym i i' : relined i i' -> relined i' i.
Proof.
  induction 1 as [|c s s' Hc1 Hc2 Hs IH|s s' Hs1 Hs2 Hs IH|e e' s s' He He' Hs IH].
  - constructor.
  - apply relined_char; assumption.
  - apply relined_cr; assumption.
  - apply relined_break; assumption.
Qed.

(** ** Instances *)
(** A text, with one line break more at some place. *)
Lemma relined_refl_aux n : forall s, length s <= n -> relined s s.
Proof.
  induction n as [|n IH]; intros s Hn; [destruct s; [constructor|simpl in Hn; lia]|].
  destruct s as [|c s]; [constructor|]. simpl in Hn.
  destruct (N.eq_dec c c_nl) as [->|H1].
  { apply (relined_break [c_nl] [c_nl]); [apply newlines_one; constructor|apply newlines_one; constructor|apply IH; lia]. }
  destruct (N.eq_dec c c_cr) as [->|H2]; [|apply relined_char; [assumption|assumption|apply IH; lia]].
  destruct s as [|d s]; [apply relined_cr; [discriminate|discriminate|constructor]|].
  destruct (N.eq_dec d c_nl) as [->|H3].
  - apply (relined_break [c_cr; c_nl] [c_cr; c_nl]); [apply newlines_one; constructor|apply newlines_one; constructor|].
    apply IH. simpl in Hn. lia.
  - apply relined_cr; [cbn; congruence|cbn; congruence|apply IH; lia].
Qed.
Lemma relined_refl s : relined s s.
Proof. apply (relined_refl_aux (length s)). lia. Qed.
Lemma relined_insert_aux e n : newlines e -> forall u v, length u <= n -> relined (u ++ c_nl :: v) (u ++ c_nl :: e ++ v).
Proof.
  intros He. assert (He1 : newlines ([c_nl] ++ e)) by (apply newlines_more; [constructor|exact He]).
  assert (He2 : newlines ([c_cr; c_nl] ++ e)) by (apply newlines_more; [constructor|exact He]).
  induction n as [|n IH]; intros u v Hn.
  { destruct u; [|simpl in Hn; lia]. cbn [app]. apply (relined_break [c_nl] ([c_nl] ++ e)).
    - apply newlines_one. constructor.
    - exact He1.
    - apply relined_refl. }
  destruct u as [|c u]; [apply IH; simpl; lia|]. simpl in Hn. cbn [app].
  destruct (N.eq_dec c c_nl) as [->|H1].
  { apply (relined_break [c_nl] [c_nl]); [apply newlines_one; constructor|apply newlines_one; constructor|apply IH; lia]. }
  destruct (N.eq_dec c c_cr) as [->|H2]; [|apply relined_char; [assumption|assumption|apply IH; lia]].
  destruct u as [|d u].
  { cbn [app]. apply (relined_break [c_cr; c_nl] ([c_cr; c_nl] ++ e)).
    - apply newlines_one. constructor.
    - exact He2.
    - apply relined_refl. }
  cbn [app]. simpl in Hn. destruct (N.eq_dec d c_nl) as [->|H3].
  - apply (relined_break [c_cr; c_nl] [c_cr; c_nl]); [apply newlines_one; constructor|apply newlines_one; constructor|].
    apply IH. lia.
  - apply relined_cr; [cbn; congruence|cbn; congruence|]. apply (IH (d :: u)). simpl. lia.
Qed.
Lemma relined_insert e u v : newlines e -> relined (u ++ c_nl :: v) (u ++ c_nl :: e ++ v).
Proof. intros He. apply (relined_insert_aux e (length u)); [exact He|lia]. Qed.
Lemma relined_crlf s : ~ In c_cr s -> relined s (to_crlf s).
Proof.
  induction s as [|c s IH]; intros H; [constructor|]. cbn [to_crlf flat_map].
  assert (Hs : relined s (to_crlf s)) by (apply IH; intros Hin; apply H; right; exact Hin).
  destruct (N.eqb_spec c c_nl) as [->|Hc].
  - apply (relined_break [c_nl] [c_cr; c_nl]); [apply newlines_one; constructor|apply newlines_one; constructor|exact Hs].
  - cbn [app]. apply relined_char; [exact Hc|intros ->; apply H; left; reflexivity|exact Hs].
Qed.
Lemma many_aux_more {A} (p : parser A) : forall n m i, n <= m -> many0_aux n p i <> PFuel -> many0_aux m p i = many0_aux n p i.
Proof.
  induction n as [|n IH]; intros m i Hm H; [exfalso; apply H; reflexivity|]. destruct m as [|m]; [lia|].
  cbn [many0_aux] in *. destruct (p i) as [r a| | |]; try reflexivity. destruct (str_eqb r i); [reflexivity|].
  rewrite (IH m r); [reflexivity|lia|]. intros E. rewrite E in H. apply H. reflexivity.
Qed.
Lemma no_break_split i : skip i = i \/ exists e s, newline e /\ i = e ++ s.
Proof.
  destruct i as [|x i]; [left; reflexivity|]. cbn [skip].
  destruct (N.eqb_spec x c_nl) as [->|_]; [right; exists [c_nl], i; split; [constructor|reflexivity]|].
  destruct (N.eqb_spec x c_cr) as [->|_]; [|left; reflexivity].
  destruct i as [|y i]; [left; reflexivity|].
  destruct (N.eqb_spec y c_nl) as [->|_]; [right; exists [c_cr; c_nl], i; split; [constructor|reflexivity]|left; reflexivity].
Qed.
Lemma header_blank e i : newlines e -> header_p (e ++ i) = POk (skip i) (mkHeader []).
Proof.
  intros He. assert (Ht : header_text (e ++ i) = POk (e ++ i) []).
  { destruct He as [e [|]|e es [|] _]; rewrite <- ?app_assoc; rewrite header_text_eq; reflexivity. }
  rewrite header_eq. unfold pbind. rewrite Ht. destruct (endings1_skip (e ++ i)) as [l El].
  - destruct He as [e [|]|e es [|] _]; discriminate.
  - rewrite El, skip_newlines by exact He. reflexivity.
Qed.
Lemma relined_nil_l s : relined [] s -> s = [].
Proof.
  intros H. remember [] as i eqn:E. destruct H; try discriminate; [reflexivity|].
  apply app_eq_nil in E. destruct E as [-> _]. inversion H; subst; [inversion H2|]. inversion H3; subst; discriminate.
Qed.
Lemma parse_leading e i c : newlines e -> route_config_p ualnum i = POk [] c -> route_config_p ualnum (e ++ i) = POk [] c.
Proof.
  intros He H. destruct (no_break_split i) as [Hi|(e' & s & He' & ->)].
  2: { apply (parse_relined (e' ++ s)); [|exact H]. rewrite app_assoc. apply relined_break; [constructor; exact He'| |apply relined_refl].
       clear H. induction He as [e He|e es He _ IH]; [|rewrite <- app_assoc]; apply newlines_more; auto. constructor; exact He'. }
  rewrite route_config_body in *. unfold config_body, pbind in *.
  assert (Hm : many0 header_p i <> PFuel).
  { intros E. rewrite E in H. discriminate. }
  assert (Hlen : length i < length (e ++ i)).
  { rewrite app_length. destruct He as [e [|]|e es [|] _]; simpl; lia. }
  assert (E : many0 header_p (e ++ i) = match many0 header_p i with POk r l => POk r (mkHeader [] :: l) | PErr => PErr | PFail => PFail | PFuel => PFuel end).
  { unfold many0 at 1. cbn [many0_aux]. rewrite header_blank, Hi by exact He.
    destruct (str_eqb_spec i (e ++ i)) as [E|_]; [rewrite <- E in Hlen; lia|].
    rewrite (many_aux_more header_p (S (length i))); [|lia|exact Hm]. fold (many0 header_p i).
    destruct (many0 header_p i); reflexivity. }
  pose proof (parse_total ualnum (e ++ i)) as Hf. rewrite route_config_body in Hf. unfold config_body, pbind in Hf.
  rewrite E in *. clear E Hm. destruct (many0 header_p i) as [i1 h| | |]; try discriminate.
  destruct (many0 line_ending i1) as [i2 l| | |]; try discriminate.
  destruct (pchar c_slash i2) as [i3 ?| | |]; try discriminate.
  destruct (many1 line_ending i3) as [i4 ?| | |] eqn:E3; try discriminate.
  pose proof (sim_routes (S (length i)) (S (length (e ++ i))) 1 i4 i4 (relined_refl i4)) as Hs.
  destruct (routes_p ualnum (S (length i)) 1 i4) as [r b| | |]; try discriminate.
  destruct r as [|? ?]; [|discriminate]. injection H as <-.
  destruct (routes_p ualnum (S (length (e ++ i))) 1 i4) as [r' b'| | |]; cbn [same] in Hs; try contradiction; try congruence.
  destruct Hs as [Hr <-]. apply relined_nil_l in Hr. subst r'. reflexivity.
Qed.
End Parse.
