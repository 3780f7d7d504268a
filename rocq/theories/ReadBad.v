(** * ReadBad: blocks with the arms that are no Rust

    [AHSomeSlash] and [AHStmts] are arms that no reader takes for a match arm.  A
    block of names and plain literals is read back, or, with such an arm in it,
    not read at all. *)
From Verif Require Import Base BaseFacts Core Flat MiniRust Gen Items Fixed RLex RRead SpecRead SpecCost LexFacts ExecFacts CostFacts
  ReadFacts ReadItems ReadAll.

Local Notation w s := (Word (lit s)) (only parsing).
Local Notation o s := (Op (lit s)) (only parsing).

Lemma pre_none ts : pre ts None = None.
Proof. induction ts; [reflexivity|]. cbn [pre]. rewrite IHts. reflexivity. Qed.

Lemma some_eq {A} (x y : A) : Some x = Some y -> y = x.
Proof. congruence. Qed.

(** ** Blocks of names and plain literals *)

Definition fair_body (h : arm_head) (body : list stmt) : Prop :=
  match h with
  | AHSomeSlash => body = []
  | AHStmts => exists c b l, body = SBlank :: SWhile c b :: l
  | h => good_body h body
  end.
Fixpoint fair_stmt (s : stmt) : Prop :=
  match s with
  | SWhile c body | SIf c body => good_bexpr c /\ fold_right (fun s P => fair_stmt s /\ P) True body
  | SMatch sc arms =>
      good_scrut sc /\
      fold_right (fun (a : arm_head * list stmt) P =>
                    let (h, body) := a in (fair_body h body /\ fold_right (fun s P => fair_stmt s /\ P) True body) /\ P)
        True arms
  | s => good_stmt s
  end.
Definition fair_block (l : list stmt) : Prop := fold_right (fun s P => fair_stmt s /\ P) True l.
Definition fair_arms (l : list (arm_head * list stmt)) : Prop :=
  fold_right (fun (a : arm_head * list stmt) P => let (h, body) := a in (fair_body h body /\ fair_block body) /\ P) True l.
Lemma fair_block_app a b : fair_block (a ++ b) <-> fair_block a /\ fair_block b.
Proof. induction a as [|s a IH]; cbn [app fair_block fold_right]; [tauto|]. fold (fair_block (a ++ b)) (fair_block a). tauto. Qed.
Lemma fair_arms_app a b : fair_arms (a ++ b) <-> fair_arms a /\ fair_arms b.
Proof.
  induction a as [|[h body] a IH]; cbn [app fair_arms fold_right]; [tauto|]. fold (fair_arms (a ++ b)) (fair_arms a). tauto.
Qed.
Definition good_arms (l : list (arm_head * list stmt)) : Prop :=
  fold_right (fun (a : arm_head * list stmt) P => let (h, body) := a in (good_body h body /\ good_block body) /\ P) True l.
Lemma good_arms_all l : good_arms l <-> forall h body, In (h, body) l -> good_body h body /\ good_block body.
Proof.
  induction l as [|[h body] l IH]; [split; [intros _ ? ? []|intros _; exact I]|]. cbn [good_arms fold_right In].
  fold (good_arms l). rewrite IH. split.
  - intros [H1 H2] h' b' [[= <- <-]|H]; auto.
  - intros H. split; [apply H; auto|]. auto.
Qed.

(** ** Text that is not read *)

Definition opt (x : option (list tok)) (y : option (list tok)) : option (list tok) :=
  match x with Some ts => pre ts y | None => None end.
(** What the text is read as: [None] if there is a token the lexer rejects. *)
Definition begins_word (ts : list tok) : Prop := exists x ts', ts = Word x :: ts'.
Definition bad_stmt (s : stmt) : Prop := exists x,
  (forall d r, lex (pr_stmt d s ++ r) = opt x (lex r)) /\
  forall ts, x = Some ts -> begins_word ts /\ (forall r, r_pstmt (ts ++ r) = None) /\
    forall fuel r, length ts <= fuel -> r_stmt (r_block fuel) (ts ++ r) = None.
Definition bad_block (l : list stmt) : Prop := exists x,
  (forall d r, lex (concat (map (pr_stmt d) l) ++ r) = opt x (lex r)) /\
  forall ts, x = Some ts -> (forall r, r_pstmt (ts ++ r) = None) /\
    forall fuel r, length ts < fuel -> exists l' ts', r_block fuel (ts ++ r) = Some (l', ts') /\ begins_word ts'.

Lemma pstmt_stops_at l rest : good_block l -> r_pstmt rest = None -> r_pstmt (flat_map stoks l ++ rest) = None.
Proof.
  intros Hg Hr. induction l as [|s l IH]; [exact Hr|]. destruct Hg as [Hs Hl]. cbn [flat_map]. rewrite <- app_assoc.
  destruct (stoks s) eqn:E; [apply IH; exact Hl|]. rewrite <- E. apply pstmt_stops_of; [exact Hs|congruence].
Qed.
Definition decided (s : stmt) : Prop := fair_stmt s -> good_stmt s \/ bad_stmt s.
Lemma first_bad l : Forall decided l -> fair_block l ->
  good_block l \/ exists l1 s l2, l = l1 ++ s :: l2 /\ good_block l1 /\ bad_stmt s.
Proof.
  induction 1 as [|s l Hs Hl IH]; intros Hf; [left; exact I|]. destruct Hf as [Hf1 Hf2].
  destruct (Hs Hf1) as [Hg|Hb]; [|right; exists [], s, l; repeat split; exact Hb].
  destruct (IH Hf2) as [Hg2|(l1 & s' & l2 & -> & Hg2 & Hb)]; [left; split; assumption|].
  right. exists (s :: l1), s', l2. repeat split; assumption.
Qed.
(** What it is, it is some tokens or none. *)
Lemma decided_lexes l : Forall decided l -> fair_block l ->
  exists x, forall d r, lex (concat (map (pr_stmt d) l) ++ r) = opt x (lex r).
Proof.
  induction 1 as [|s l Hs Hl IH]; intros Hf; [exists (Some []); reflexivity|]. destruct Hf as [Hf1 Hf2].
  destruct (IH Hf2) as [x Hx].
  assert (Hy : exists y, forall d r, lex (pr_stmt d s ++ r) = opt y (lex r)).
  { destruct (Hs Hf1) as [Hg|(y & Hy & _)]; [|eauto]. exists (Some (stoks s)). intros d r. apply lex_stmt. exact Hg. }
  destruct Hy as [y Hy]. exists (opt y x). intros d r. cbn [map concat]. rewrite <- app_assoc, Hy, Hx.
  destruct y as [ty|]; [|reflexivity]. destruct x as [tx|]; cbn [opt]; [rewrite pre_some; symmetry; apply pre_app|rewrite !pre_none; reflexivity].
Qed.
Lemma read_until l fuel rest : good_block l -> length (flat_map stoks l) <= fuel -> r_stmt (r_block fuel) rest = None ->
  many_ (r_stmt (r_block fuel)) (flat_map stoks l ++ rest) = Some (canon_block l, rest).
Proof.
  intros Hg Hf Hr. apply (many__reads (fun _ => True)); [exact Hr|exact I|].
  intros s Hs. destruct (canon_first s) as [?|[H1 H2]]; [left; assumption|]. right. exists (canon1 s).
  split; [exact H1|]. split; [exact H2|]. split; [auto|]. intros r' _.
  assert (Hlen : length (stoks s) <= fuel).
  { assert (length (stoks s) <= length (flat_map stoks l)); [|lia].
    clear -Hs. induction l as [|x l IH]; [destruct Hs|]. cbn [flat_map]. rewrite app_length.
    destruct Hs as [->|Hs]; [lia|]. specialize (IH Hs). lia. }
  destruct (read_stmt s fuel (good_block_in _ _ Hg Hs) Hlen) as [H|H]; [congruence|]. apply H.
Qed.
Lemma decide_block l : Forall decided l -> fair_block l -> good_block l \/ bad_block l.
Proof.
  intros Hd Hf. destruct (first_bad l Hd Hf) as [Hg|(l1 & s & l2 & -> & Hg & x & Hx & Hbad)]; [left; exact Hg|right].
  apply Forall_app in Hd. destruct Hd as [_ Hd]. inversion Hd as [|? ? _ Hd2]; subst.
  apply fair_block_app in Hf. destruct Hf as [_ [_ Hf2]]. destruct (decided_lexes l2 Hd2 Hf2) as [y Hy].
  exists (opt (Some (flat_map stoks l1)) (opt x y)). split.
  - intros d r. rewrite map_app, concat_app. cbn [map concat]. rewrite <- !app_assoc.
    rewrite (lex_block d l1 _ Hg : lex (concat (map (pr_stmt d) l1) ++ _) = _), Hx, Hy.
    destruct x as [tx|]; cbn [opt]; [|rewrite pre_none; reflexivity].
    destruct y as [ty|]; cbn [opt]; [|rewrite !pre_none; reflexivity].
    rewrite !pre_some. cbn [opt]. rewrite !pre_app. reflexivity.
  - intros ts Hts. destruct x as [tx|]; cbn [opt] in Hts; [|rewrite pre_none in Hts; discriminate].
    destruct y as [ty|]; cbn [opt] in Hts; [|rewrite !pre_none in Hts; discriminate].
    rewrite !pre_some in Hts. apply some_eq in Hts. subst ts.
    destruct (Hbad tx eq_refl) as [(k & tx' & ->) [Hp Hr]]. split.
    { intros r. rewrite <- !app_assoc. apply pstmt_stops_at; [exact Hg|]. apply Hp. }
    intros fuel r Hfuel. rewrite !app_length in Hfuel. exists (canon_block l1). eexists. split; [|exists k; eexists; reflexivity].
    destruct fuel as [|fuel]; [lia|]. cbn [r_block]. rewrite <- !app_assoc.
    rewrite read_until; [reflexivity|exact Hg|lia|]. apply Hr. lia.
Qed.

(** ** Arms *)

Definition pr_arm (d : nat) (a : arm_head * list stmt) : str :=
  let (h, body) := a in
  match h with
  | AHBlock t => pr_arm_block (spaces4 (S d)) t (concat (map (pr_stmt (S (S d))) body))
  | AHInline t => pr_arm_inline (spaces4 (S d)) (byte_lit t) body
  | AHWild => pr_arm_inline (spaces4 (S d)) (lit "_") body
  | AHWildUnit => spaces4 (S d) ++ lit "_ => {}," ++ nl
  | AHSomeSlash => spaces4 (S d) ++ lit "Some('/') => {}" ++ nl
  | AHStmts => concat (map (pr_stmt d) body)
  end.
Lemma lex_good_arms d arms r : good_arms arms -> lex (concat (map (pr_arm d) arms) ++ r) = pre (flat_map atoks arms) (lex r).
Proof.
  intros H. apply (lex_arms d arms); [|apply good_arms_all; exact H]. apply Forall_forall. intros a _. apply Forall_forall. intros s _. apply lex_stmt.
Qed.
Definition bad_arm (a : arm_head * list stmt) : Prop := exists x,
  (forall d r, lex (pr_arm d a ++ r) = opt x (lex r)) /\
  forall ts, x = Some ts -> (exists t ts', ts = t :: ts' /\ forall s, t <> Op s) /\
    forall fuel r, length ts <= fuel -> r_arm (r_block fuel) (ts ++ r) = None.
Lemma lex_some_slash d r : lex (spaces4 d ++ lit "Some('/') => {}" ++ r) = None.
Proof. rewrite lex_spaces. reflexivity. Qed.
Lemma while_first d c b l r x : lex (concat (map (pr_stmt d) (SBlank :: SWhile c b :: l)) ++ r) = Some x -> exists x', x = w "while" :: x'.
Proof.
  cbn [map concat pr_stmt pr_simple]. rewrite <- !app_assoc, lex_nl. unfold pr_block_of. rewrite <- !app_assoc, lex_spaces. lexlit.
  set (y := lex _). destruct y as [y|]; [|discriminate]. cbn [pre]. intros [= <-]. eauto.
Qed.
Lemma decide_arm h body : Forall decided body -> fair_body h body -> fair_block body ->
  (good_body h body /\ good_block body) \/ bad_arm (h, body).
Proof.
  intros Hd Hh Hf. destruct h as [t|t| | | |]; cbn [fair_body good_body] in Hh.
  - destruct (decide_block body Hd Hf) as [Hg|(x & Hx & Hr)]; [left; split; assumption|right].
    exists (opt (Some [Bytes t; o "=>"; o "{"]) (opt x (Some [o "}"; o ","]))). split.
    + intros d r. cbn [pr_arm]. unfold pr_arm_block. rewrite <- !app_assoc, lex_spaces, lex_bytes by (assumption || reflexivity). lexlit.
      rewrite lex_nl, Hx. destruct x as [tx|]; [|reflexivity]. cbn [opt]. rewrite lex_spaces. lexlit. rewrite lex_nl, !pre_some.
      cbn [opt]. rewrite !pre_app. reflexivity.
    + intros ts Hts. destruct x as [tx|]; [|discriminate]. cbn [opt] in Hts. rewrite !pre_some in Hts. apply some_eq in Hts. subst ts.
      split; [eexists; eexists; split; [reflexivity|discriminate]|]. intros fuel r Hfuel. cbn [length app] in Hfuel. rewrite app_length in Hfuel. cbn [length] in Hfuel.
      destruct (proj2 (Hr tx eq_refl) fuel ([o "}"; o ","] ++ r) ltac:(lia)) as (l' & ts' & E & k & ts'' & ->).
      cbn [app]. rewrite <- app_assoc. unfold r_arm. rewrite skip_or; [reflexivity|]. unfold then_ at 1. cbn [bytes_lit]. onward.
      unfold then_ at 1. match goal with |- match ?b with _ => _ end = _ => assert (Hb : b = None); [|rewrite Hb; reflexivity] end.
      unfold r_body. rewrite skip_or; [reflexivity|]. onward. rewrite (go_on _ _ _ _ _ E). reflexivity.
  - left. destruct Hh as (Hp & y & ->). split; [split; [exact Hp|exists y; reflexivity]|exact Hf].
  - left. destruct Hh as (y & ->). split; [exists y; reflexivity|exact Hf].
  - left. subst body. split; [reflexivity|exact I].
  - right. exists None. split; [|discriminate]. intros d r. cbn [pr_arm opt]. rewrite <- !app_assoc. apply lex_some_slash.
  - right. destruct Hh as (c & b & l & ->). destruct (decided_lexes _ Hd Hf) as [x Hx]. exists x. split; [intros d r; apply Hx|].
    intros ts ->. pose proof (Hx 0 []) as Hl. cbn [opt] in Hl. change (lex []) with (Some (@nil tok)) in Hl. rewrite pre_some in Hl.
    apply (while_first 0 c b l []) in Hl. rewrite app_nil_r in Hl. destruct Hl as [ts' ->].
    split; [eexists; eexists; split; [reflexivity|discriminate]|]. intros fuel r _. reflexivity.
Qed.
Lemma first_bad_arm l : Forall (fun a : arm_head * list stmt => Forall decided (snd a)) l -> fair_arms l ->
  good_arms l \/ exists l1 a l2, l = l1 ++ a :: l2 /\ good_arms l1 /\ bad_arm a.
Proof.
  induction 1 as [|[h body] l Hs Hl IH]; intros Hf; [left; exact I|]. destruct Hf as [[Hf1 Hf1'] Hf2].
  destruct (decide_arm h body Hs Hf1 Hf1') as [Hg|Hb]; [|right; exists [], (h, body), l; split; [reflexivity|split; [exact I|exact Hb]]].
  destruct (IH Hf2) as [Hg2|(l1 & s' & l2 & -> & Hg2 & Hb)]; [left; split; assumption|].
  right. exists ((h, body) :: l1), s', l2. split; [reflexivity|]. split; [split; assumption|exact Hb].
Qed.
Lemma arms_lex l : Forall (fun a : arm_head * list stmt => Forall decided (snd a)) l -> fair_arms l ->
  exists x, forall d r, lex (concat (map (pr_arm d) l) ++ r) = opt x (lex r).
Proof.
  induction 1 as [|[h body] l Hs Hl IH]; intros Hf; [exists (Some []); reflexivity|]. destruct Hf as [[Hf1 Hf1'] Hf2].
  destruct (IH Hf2) as [x Hx].
  assert (Hy : exists y, forall d r, lex (pr_arm d (h, body) ++ r) = opt y (lex r)).
  { destruct (decide_arm h body Hs Hf1 Hf1') as [Hg|(y & Hy & _)]; [|eauto]. exists (Some (atoks (h, body))). intros d r.
    pose proof (lex_good_arms d [(h, body)] r (conj Hg I)) as E. cbn [map concat flat_map] in E. rewrite !app_nil_r in E. exact E. }
  destruct Hy as [y Hy]. exists (opt y x). intros d r. cbn [map concat]. rewrite <- app_assoc, Hy, Hx.
  destruct y as [ty|]; [|reflexivity]. destruct x as [tx|]; cbn [opt]; [rewrite pre_some; symmetry; apply pre_app|rewrite !pre_none; reflexivity].
Qed.

(** ** Statements *)

Lemma decide_stmt s : decided s.
Proof.
  induction s as [s Hs|c body IH|c body IH|sc arms IH] using stmt_ind'; intros Hf.
  - left. destruct s; try discriminate Hs; exact Hf.
  - destruct Hf as [Hc Hf]. destruct (decide_block body IH Hf) as [Hg|(x & Hx & Hr)]; [left; split; assumption|right].
    exists (opt (Some (w "while" :: btoks c ++ [o "{"])) (opt x (Some [o "}"]))). split.
    + intros d r. cbn [pr_stmt]. unfold pr_block_of. rewrite <- !app_assoc, lex_spaces. lexlit.
      rewrite lex_bexpr by (exact Hc || reflexivity). lexlit. rewrite lex_nl, Hx. destruct x as [tx|]; cbn [opt]; [|rewrite !pre_none; reflexivity].
      rewrite lex_spaces. lexlit. rewrite lex_nl, !pre_some. cbn [opt]. rewrite !pre_app. finish.
    + intros ts Hts. destruct x as [tx|]; cbn [opt] in Hts; [|rewrite pre_none in Hts; discriminate]. rewrite !pre_some in Hts. apply some_eq in Hts. subst ts.
      split; [eexists; eexists; reflexivity|]. split; [reflexivity|]. intros fuel r Hfuel. cbn [length app] in Hfuel. rewrite !app_length in Hfuel. cbn [length] in Hfuel.
      destruct (proj2 (Hr tx eq_refl) fuel ([o "}"] ++ r) ltac:(lia)) as (l' & ts' & E & k & ts'' & ->).
      unfold r_stmt. cbn [app]. other. other. rewrite skip_or; [reflexivity|]. onward. repeat (progress (rewrite <- ?app_assoc; cbn [app])).
      rewrite (go_on _ _ _ _ _ (read_bexpr c (Op (lit "{") :: _) Hc (conj eq_refl eq_refl))). onward.
      rewrite (go_on _ _ _ _ _ E). reflexivity.
  - destruct Hf as [Hc Hf]. destruct (decide_block body IH Hf) as [Hg|(x & Hx & Hr)]; [left; split; assumption|right].
    exists (opt (Some (w "if" :: btoks c ++ [o "{"])) (opt x (Some [o "}"]))). split.
    + intros d r. cbn [pr_stmt]. unfold pr_block_of. rewrite <- !app_assoc, lex_spaces. lexlit.
      rewrite lex_bexpr by (exact Hc || reflexivity). lexlit. rewrite lex_nl, Hx. destruct x as [tx|]; cbn [opt]; [|rewrite !pre_none; reflexivity].
      rewrite lex_spaces. lexlit. rewrite lex_nl, !pre_some. cbn [opt]. rewrite !pre_app. finish.
    + intros ts Hts. destruct x as [tx|]; cbn [opt] in Hts; [|rewrite pre_none in Hts; discriminate]. rewrite !pre_some in Hts. apply some_eq in Hts. subst ts.
      split; [eexists; eexists; reflexivity|]. split; [reflexivity|]. intros fuel r Hfuel. cbn [length app] in Hfuel. rewrite !app_length in Hfuel. cbn [length] in Hfuel.
      destruct (proj2 (Hr tx eq_refl) fuel ([o "}"] ++ r) ltac:(lia)) as (l' & ts' & E & k & ts'' & ->).
      unfold r_stmt. cbn [app]. other. other. other. rewrite skip_or; [reflexivity|]. onward. repeat (progress (rewrite <- ?app_assoc; cbn [app])).
      rewrite (go_on _ _ _ _ _ (read_bexpr c (Op (lit "{") :: _) Hc (conj eq_refl eq_refl))). onward.
      rewrite (go_on _ _ _ _ _ E). reflexivity.
  - destruct Hf as [Hc Hf]. change (fair_arms arms) in Hf.
    destruct (first_bad_arm arms IH Hf) as [Hg|(l1 & a & l2 & -> & Hg & x & Hx & Hr)]; [left; split; assumption|right].
    apply Forall_app in IH. destruct IH as [_ IH]. inversion IH as [|? ? _ IH2]; subst.
    apply fair_arms_app in Hf. destruct Hf as [_ Hf2].
    assert (Hf3 : fair_arms l2) by (destruct a; apply Hf2). destruct (arms_lex l2 IH2 Hf3) as [y Hy].
    exists (opt (Some (w "match" :: sctoks sc ++ [o "{"] ++ flat_map atoks l1)) (opt x (opt y (Some [o "}"])))). split.
    + intros d r. cbn [pr_stmt].
      change (map (fun a : arm_head * list stmt => let (h, body) := a in _) (l1 ++ a :: l2)) with (map (pr_arm d) (l1 ++ a :: l2)).
      unfold pr_block_of. rewrite <- !app_assoc, lex_spaces. lexlit.
      rewrite lex_scrut by (exact Hc || reflexivity). lexlit. rewrite lex_nl, map_app, concat_app. cbn [map concat]. rewrite <- !app_assoc.
      rewrite lex_good_arms by exact Hg. rewrite Hx, Hy. destruct x as [tx|]; cbn [opt]; [|rewrite !pre_none; reflexivity].
      destruct y as [ty|]; cbn [opt]; [|rewrite !pre_none; reflexivity].
      rewrite lex_spaces. lexlit. rewrite lex_nl, !pre_some. cbn [opt]. rewrite !pre_app. finish.
    + intros ts Hts. destruct x as [tx|]; cbn [opt] in Hts; [|rewrite pre_none in Hts; discriminate].
      destruct y as [ty|]; cbn [opt] in Hts; [|rewrite !pre_none in Hts; discriminate]. rewrite !pre_some in Hts. apply some_eq in Hts. subst ts.
      split; [eexists; eexists; reflexivity|]. split; [reflexivity|]. intros fuel r Hfuel. cbn [length app] in Hfuel. rewrite !app_length in Hfuel. cbn [length] in Hfuel.
      destruct (Hr tx eq_refl) as [(t & tx' & -> & Ht) Hra].
      assert (Hm : forall rest, many_ (r_arm (r_block fuel)) (flat_map atoks l1 ++ (t :: tx') ++ rest) = Some (map canon_arm l1, (t :: tx') ++ rest)).
      { intros rest. apply many__map; [apply Hra; lia|]. rewrite good_arms_all in Hg.
        intros [h body] Hin. split; [apply atoks_some|]. destruct (Hg h body Hin) as [H1 H2]. apply read_arm; auto.
        + intros s _. apply read_stmt.
        + assert (length (atoks (h, body)) <= length (flat_map atoks l1)); [|lia].
          clear -Hin. induction l1 as [|z l IH]; [destruct Hin|]. cbn [flat_map]. rewrite app_length.
          destruct Hin as [->|Hin]; [lia|]. specialize (IH Hin). lia. }
      unfold r_stmt. cbn [app]. other. other. other. other. rewrite skip_or; [reflexivity|]. onward. repeat (progress (rewrite <- ?app_assoc; cbn [app])).
      rewrite (go_on _ _ _ _ _ (read_scrut sc (Op (lit "{") :: _) Hc)). onward.
      match goal with |- then_ (many_ _) _ (_ ++ ?a :: ?b ++ ?z) = _ => rewrite (go_on _ _ _ _ _ (Hm z : many_ _ (_ ++ a :: b ++ z) = _)) end.
      cbn [app]. unfold then_ at 1. unfold op, eat. destruct t as [| | | | |x]; try reflexivity. destruct (Ht x eq_refl).
Qed.
Lemma decide l : fair_block l -> good_block l \/ bad_block l.
Proof. apply decide_block. apply Forall_forall. intros s _. apply decide_stmt. Qed.

(** ** The module *)

(** What a function with a bad block is read as, it is not [match_route]. *)
Lemma bad_fn ts r : (forall r, r_pstmt (ts ++ r) = None) ->
  (forall fuel r, length ts < fuel -> exists l' ts', r_block fuel (ts ++ r) = Some (l', ts') /\ begins_word ts') ->
  r_fn (fn_start ++ flat_map pstmt_toks prologue ++ ts ++ r) = None.
Proof.
  intros Hp Hr. unfold r_fn, fn_start. rewrite <- !app_assoc.
  rewrite (go_on _ _ _ _ _ (eat_all_app _ _)). cbn [app].
  rewrite (go_on _ _ _ tt (o ")" :: fn_result ++ flat_map pstmt_toks prologue ++ ts ++ r)) by reflexivity.
  onward. rewrite (go_on _ _ _ _ _ (eat_all_app _ _)).
  assert (Hm : many_ r_pstmt (flat_map pstmt_toks prologue ++ ts ++ r) = Some (prologue, ts ++ r)).
  { rewrite (many__map r_pstmt pstmt_toks (fun p => p)); [reflexivity|apply Hp|].
    intros p H. unfold prologue in H. cbn [In] in H. destruct H as [<-|[<-|[<-|[<-|[]]]]]; split; (discriminate || reflexivity). }
  rewrite (go_on _ _ _ _ _ Hm).
  destruct (Hr (S (length (ts ++ r))) r ltac:(rewrite app_length; lia)) as (l' & ts' & E & k & ts'' & ->).
  rewrite (go_on _ _ _ _ _ E). reflexivity.
Qed.
Lemma bad_decl ts r fuel : (forall r, r_pstmt (ts ++ r) = None) ->
  (forall fuel r, length ts < fuel -> exists l' ts', r_block fuel (ts ++ r) = Some (l', ts') /\ begins_word ts') ->
  forall d rest, r_decl fuel (fn_start ++ flat_map pstmt_toks prologue ++ ts ++ r) = Some (d, rest) -> exists l, d = DOther l.
Proof.
  intros Hp Hr d rest. destruct fuel as [|fuel]; [discriminate|]. cbn [r_decl].
  other. other. other. other. other. rewrite skip_or by (apply bad_fn; assumption).
  destruct (item_tokens 0 _) as [[l ts']|]; [|discriminate]. intros [= <- _]. eauto.
Qed.
(** Parts that are read, then something else. *)
Lemma many_then {A B} (p : reader A) (tk : B -> list tok) (f : B -> A) rest : forall l fuel res out,
  (forall b, In b l -> tk b <> [] /\ forall r, p (tk b ++ r) = Some (f b, r)) ->
  many fuel p (flat_map tk l ++ rest) = Some (res, out) ->
  (p rest = None /\ res = map f l /\ out = rest) \/ exists a r res', p rest = Some (a, r) /\ res = map f l ++ a :: res'.
Proof.
  induction l as [|b l IH]; intros fuel res out Hl H.
  - destruct fuel; [discriminate|]. cbn [flat_map app many map] in *. destruct (p rest) as [[a r]|] eqn:E.
    + right. unfold then_ in H. destruct (many fuel p r) as [[l' r']|]; [|discriminate]. injection H as <- _. eauto.
    + left. injection H as <- <-. auto.
  - destruct fuel; [discriminate|]. cbn [flat_map many] in H. rewrite <- app_assoc in H.
    destruct (Hl b (or_introl eq_refl)) as [_ Hb]. rewrite Hb in H. unfold then_ in H.
    destruct (many fuel p (flat_map tk l ++ rest)) as [[l' r']|] eqn:E; [|discriminate]. injection H as <- <-.
    destruct (IH fuel l' r' (fun b' H' => Hl b' (or_intror H')) E) as [(H1 & -> & ->)|(a & r & res' & H1 & ->)]; [left; auto|right].
    exists a, r, res'. auto.
Qed.
Lemma bad_file ps ts r : ps <> [] -> Forall reads_as ps -> (forall r, r_pstmt (ts ++ r) = None) ->
  (forall fuel r, length ts < fuel -> exists l' ts', r_block fuel (ts ++ r) = Some (l', ts') /\ begins_word ts') ->
  forall l,
  r_file (lit "routes") (file_toks ++ flat_map allow_toks allowed ++ flat_map fst ps
                         ++ fn_start ++ flat_map pstmt_toks prologue ++ ts ++ r) = Some l ->
  exists x l', l = map snd ps ++ DOther x :: l'.
Proof.
  intros Hn Hps Hp Hr l. unfold r_file. set (n := length _).
  assert (Hlen : length (flat_map fst ps) <= n) by (unfold n; rewrite !app_length; lia). clearbody n.
  unfold file_toks. cbn [app]. onward. rewrite (go_on _ _ _ _ _ (eat_same _ _)). onward.
  rewrite (go_on _ _ _ _ _ (allows_read ps _ Hn Hps)). unfold then_ at 1. unfold many_.
  destruct (many _ _ _) as [[res out]|] eqn:E; [|discriminate].
  apply many_then with (f := snd) in E.
  - destruct E as [(_ & -> & ->)|(a & r' & res' & H1 & ->)]; [discriminate|].
    destruct (bad_decl ts r n Hp Hr _ _ H1) as [x ->].
    unfold then_. destruct (op "}" out) as [[? [|]]|]; try discriminate. intros [= <-]. eauto.
  - intros p Hin. rewrite Forall_forall in Hps. destruct (Hps p Hin) as (H1 & _ & H3). split; [exact H1|].
    intros r'. apply H3. pose proof (piece_short p ps Hin). lia.
Qed.
Lemma tokss_length a : forall b, tokss_eqb a b = true -> length a = length b.
Proof.
  induction a as [|x a IH]; intros [|y b]; cbn [tokss_eqb length]; try discriminate; auto.
  rewrite andb_true_iff. intros [_ H]. auto.
Qed.
Lemma bad_text c root body : snd (codegen c) = ROk tt -> doc_ok c = true ->
  flattened_modules (c_routes c) = ROk root -> gen_program c = ROk body ->
  good_items (module_items true (c_headers c) root) -> bad_block body ->
  compile_text (w_text (codegen c)) = None.
Proof.
  intros Hok Hd Hr Hb Hgood (x & Hx & Hbad). destruct (module_lexes c root body Hok Hd Hr Hb Hgood) as [d Hlex].
  unfold compile_text, read_module. rewrite Hlex. unfold pr_block. rewrite Hx. destruct x as [ts|]; cbn [opt]; [|rewrite pre_none; reflexivity].
  destruct (Hbad ts eq_refl) as [Hp Hread]. rewrite lex_tail, !pre_some, <- !app_assoc.
  destruct (read_items _ Hgood) as (ps & H1 & H2 & H3). rewrite <- H1.
  pose proof (bad_file (ps ++ fixed_pieces) ts [o "}"; o "}"]) as H. rewrite flat_map_app, <- app_assoc in H.
  destruct (r_file _ _) as [l|]; [|reflexivity]. cbn [option_map].
  destruct (H ltac:(intros E; apply app_eq_nil in E; destruct E; discriminate)
              ltac:(apply Forall_app; split; [exact H2|exact fixed_read]) Hp Hread l eq_refl) as (y & l' & ->).
  set (rd := sort_decls _).
  assert (Ho : tokss_eqb (rd_others rd) fixed_tokens = false).
  { destruct (tokss_eqb (rd_others rd) fixed_tokens) eqn:E; [|reflexivity]. exfalso. apply tokss_length in E.
    unfold rd in E. rewrite map_app, !sort_app in E. pose proof (sort_items _ _ H3) as Hps. pose proof sort_fixed as Hfx.
    unfold piece in *. rewrite Hps, Hfx in E. cbn [rd_others app sort_decls flat_map] in E. rewrite app_length in E. cbn [length] in E. lia. }
  rewrite Ho. cbn [andb]. destruct (rd_fns rd) as [|[] [|]]; reflexivity.
Qed.
