(** * ReadItems: reading printed items *)
From Verif Require Import Base BaseFacts Core Flat MiniRust Gen Spec Items Fixed RLex RRead SpecRead LexFacts FlatFacts ItemFacts ReadFacts.

Fixpoint item_ind' (P : item -> Prop)
  (H0 : forall it, match it with ItMod _ _ => False | _ => True end -> P it)
  (Hm : forall n l, Forall P l -> P (ItMod n l)) (it : item) {struct it} : P it :=
  match it with
  | ItMod n l => Hm n l ((fix go l : Forall P l :=
      match l with [] => Forall_nil P | it :: l' => Forall_cons it (item_ind' P H0 Hm it) (go l') end) l)
  | it => H0 it I
  end.

Definition good_ty (t : ty) : Prop :=
  match t with TyUser t | TyOption t => is_ident t = true | TyItem _ _ => False end.
Definition good_payload (t : ty) : Prop :=
  match t with TyItem path n => idents path /\ is_ident n = true | _ => False end.
Fixpoint good_item (it : item) : Prop :=
  match it with
  | ItLine t => use_line t
  | ItBlank => True
  | ItStruct doc n fs => doc_line doc = true /\ is_ident n = true /\ Forall (fun f => is_ident (fst f) = true /\ good_ty (snd f)) fs
  | ItStructPath n binds t args => is_ident n = true /\ idents binds /\ forallb text_char t = true /\ idents args
  | ItMod n l => is_ident n = true /\ fold_right (fun it P => good_item it /\ P) True l
  | ItEnum doc n vs => doc_line doc = true /\ is_ident n = true /\ Forall (fun v => is_ident (fst v) = true /\ good_payload (snd v)) vs
  | ItEnumPath n arms => is_ident n = true /\ idents arms
  end.
Definition good_items (l : list item) : Prop := fold_right (fun it P => good_item it /\ P) True l.
Lemma good_items_all l : good_items l <-> Forall good_item l.
Proof.
  induction l as [|it l IH]; [split; constructor|]. cbn [good_items fold_right]. fold (good_items l). rewrite IH.
  split; [intros [? ?]; constructor; auto|]. intros H. inversion H; auto.
Qed.

Local Notation w s := (Word (lit s)) (only parsing).
Local Notation o s := (Op (lit s)) (only parsing).
Definition derive_toks : list tok :=
  [o "#"; o "["; w "derive"; o "("; w "Debug"; o ","; w "PartialEq"; o ","; w "Eq"; o ")"; o "]"].
Definition tytoks (t : ty) : list tok :=
  match t with
  | TyUser t => [Word t]
  | TyOption t => [w "Option"; o "<"; Word t; o ">"]
  | TyItem path n => ptoks (path ++ [n])
  end.
Definition impl_toks (n : str) (body : list tok) : list tok :=
  [w "impl"; Word n; o "{"; w "pub"; w "fn"; w "to_path"; o "("; o "&"; w "self"; o ")"; o "->"; w "String"; o "{"]
  ++ body ++ [o "}"; o "}"].
Definition format_toks (n : str) (binds : list str) (t : str) (args : list str) : list tok :=
  match binds with
  | [] => []
  | _ => [w "let"; Word n; o "{"] ++ flat_map (fun b => [w "ref"; Word b] ++ [o ","]) binds ++ [o "}"; o "="; w "self"; o ";"]
  end
  ++ [w "format"; o "!"; o "("; Text t] ++ flat_map (fun a => [o ","; Word a]) args ++ [o ")"].
Definition arm_toks (n a : str) : list tok :=
  [Word n; o "::"; Word a; o "("; w "ref"; w "route"; o ")"; o "=>"; w "route"; o "."; w "to_path"; o "("; o ")"].
Fixpoint itoks (it : item) : list tok :=
  match it with
  | ItLine t => tokens t
  | ItBlank => []
  | ItStruct _ n [] => derive_toks ++ [w "pub"; w "struct"; Word n; o ";"]
  | ItStruct _ n fs =>
      derive_toks ++ [w "pub"; w "struct"; Word n; o "{"]
      ++ flat_map (fun f => ([w "pub"; Word (fst f); o ":"] ++ tytoks (snd f)) ++ [o ","]) fs ++ [o "}"]
  | ItStructPath n binds t args => impl_toks n (format_toks n binds t args)
  | ItMod n l => [w "pub"; w "mod"; Word n; o "{"] ++ flat_map itoks l ++ [o "}"]
  | ItEnum _ n vs =>
      derive_toks ++ [w "pub"; w "enum"; Word n; o "{"]
      ++ flat_map (fun v => ([Word (fst v); o "("] ++ tytoks (snd v) ++ [o ")"]) ++ [o ","]) vs ++ [o "}"]
  | ItEnumPath n arms =>
      impl_toks n ([w "match"; w "self"; o "{"] ++ flat_map (fun a => arm_toks n a ++ [o ","]) arms ++ [o "}"])
  end.

(** ** The text *)

Definition lines (l : list str) : str := concat (map (fun x => x ++ nl) l).
Lemma lines_cons x l : lines (x :: l) = x ++ nl ++ lines l.
Proof. unfold lines. cbn [map concat]. rewrite <- app_assoc. reflexivity. Qed.
Lemma lines_app a b : lines (a ++ b) = lines a ++ lines b.
Proof. unfold lines. rewrite map_app. apply concat_app. Qed.
Definition space (ind : str) : Prop := forall s, lex (ind ++ s) = lex s.
Lemma space_more ind : space ind -> space (ind ++ lit "    ").
Proof. intros H s. rewrite <- app_assoc, H. apply lex_lit_space. Qed.
Definition lexes (l : list str) (ts : list tok) : Prop := forall r, lex (lines l ++ r) = pre ts (lex r).
Lemma lexes_nil : lexes [] [].
Proof. intros r. reflexivity. Qed.
Lemma lexes_app a b ta tb : lexes a ta -> lexes b tb -> lexes (a ++ b) (ta ++ tb).
Proof. intros Ha Hb r. rewrite lines_app, <- app_assoc, Ha, Hb, pre_app. reflexivity. Qed.
Lemma lexes_cons x l tx tl : (forall r, lex (x ++ nl ++ r) = pre tx (lex r)) -> lexes l tl -> lexes (x :: l) (tx ++ tl).
Proof. intros Hx Hl r. rewrite lines_cons, <- !app_assoc, Hx, Hl, pre_app. reflexivity. Qed.
Lemma lexes_map {A} (f : A -> str) (tk : A -> list tok) l :
  (forall a, In a l -> forall r, lex (f a ++ nl ++ r) = pre (tk a) (lex r)) -> lexes (map f l) (flat_map tk l).
Proof.
  induction l as [|a l IH]; intros H; [apply lexes_nil|]. cbn [map flat_map]. apply lexes_cons; [apply H; left; reflexivity|].
  apply IH. intros; apply H; right; assumption.
Qed.
Lemma lexes_one x tx : (forall r, lex (x ++ nl ++ r) = pre tx (lex r)) -> lexes [x] tx.
Proof. intros H. rewrite <- (app_nil_r tx). apply lexes_cons; [exact H|apply lexes_nil]. Qed.
Lemma lex_doc ind t r : space ind -> doc_line t = true -> lex ((ind ++ lit "/// " ++ t) ++ nl ++ r) = pre [] (lex r).
Proof.
  intros Hs Ht. rewrite <- !app_assoc, Hs. cbn [pre]. apply (lex_comment (lit "/ " ++ t)).
  unfold doc_line in *. rewrite forallb_app, Ht. reflexivity.
Qed.
Lemma lex_ty t r : good_ty t -> edge r = true -> lex (pr_ty t ++ lit "," ++ r) = pre (tytoks t ++ [o ","]) (lex r).
Proof.
  destruct t as [t|t|p n]; cbn [good_ty pr_ty tytoks]; intros Ht Hr; [| |destruct Ht]; rewrite <- ?app_assoc.
  - rewrite lex_word by (exact (ident_wordy _ Ht) || reflexivity). lexlit. finish.
  - change (lit "Option<" ++ t ++ lit ">" ++ lit "," ++ r) with (lit "Option" ++ lit "<" ++ t ++ lit ">," ++ r).
    rewrite lex_word by reflexivity. rewrite lex_less by (apply begins_word; apply ident_wordy; exact Ht).
    rewrite lex_word by (exact (ident_wordy _ Ht) || reflexivity). lexlit. finish.
Qed.
Ltac word := match goal with
  | H : is_ident ?x = true |- context [lex (?x ++ ?s)] => rewrite (lex_word x s (ident_wordy _ H)) by reflexivity
  end.
Ltac line Hs := intros; rewrite <- ?app_assoc, Hs; repeat first [progress lexlit|word]; rewrite ?lex_nl; finish.
Lemma lex_refs binds r : idents binds ->
  lex (flat_map (fun b => lit "ref " ++ b ++ lit ", ") binds ++ r)
  = pre (flat_map (fun b => [w "ref"; Word b] ++ [o ","]) binds) (lex r).
Proof.
  induction 1 as [|b l Hb Hl IH]; [reflexivity|]. cbn [flat_map]. rewrite <- !app_assoc. lexlit. word. lexlit.
  rewrite IH, !pre_app. reflexivity.
Qed.
Lemma lex_args args r : idents args -> edge r = true ->
  lex (flat_map (fun a => lit ", " ++ a) args ++ r) = pre (flat_map (fun a => [o ","; Word a]) args) (lex r).
Proof.
  intros H Hr. induction H as [|a l Ha Hl IH]; [reflexivity|]. cbn [flat_map]. rewrite <- !app_assoc. lexlit.
  rewrite lex_word; [|exact (ident_wordy _ Ha)|destruct l; [exact Hr|reflexivity]]. rewrite IH, !pre_app. reflexivity.
Qed.
Lemma lexes_impl ind n body tb : space ind -> is_ident n = true ->
  (forall i, space i -> lexes (map (fun l => i ++ l) body) tb) -> lexes (pr_impl ind n body) (impl_toks n tb).
Proof.
  intros Hs Hn Hb. unfold pr_impl, impl_toks.
  change ([w "impl"; Word n; o "{"; w "pub"; w "fn"; w "to_path"; o "("; o "&"; w "self"; o ")"; o "->"; w "String"; o "{"])
    with ([w "impl"; Word n; o "{"] ++ [] ++
          [w "pub"; w "fn"; w "to_path"; o "("; o "&"; w "self"; o ")"; o "->"; w "String"; o "{"] ++ []).
  apply lexes_app; [|apply lexes_app].
  - apply lexes_cons; [line Hs|]. apply lexes_cons; [|apply lexes_cons; [line Hs|apply lexes_nil]].
    intros r. rewrite <- !app_assoc, Hs. cbn [pre].
    apply (lex_comment (lit "/ Make a path to this route with the given parameters.")). reflexivity.
  - replace (map (fun l => ind ++ lit "        " ++ l) body) with (map (fun l => (ind ++ lit "        ") ++ l) body)
      by (apply map_ext; intros; rewrite <- app_assoc; reflexivity).
    apply Hb. intros s. rewrite <- app_assoc, Hs. reflexivity.
  - change [o "}"; o "}"] with ([o "}"] ++ [o "}"] ++ []).
    apply lexes_cons; [line Hs|]. apply lexes_cons; [line Hs|apply lexes_nil].
Qed.
Lemma lexes_derive ind doc : space ind -> doc_line doc = true ->
  lexes [ ind ++ lit "/// " ++ doc; ind ++ derive ] derive_toks.
Proof.
  intros Hs Hd. change derive_toks with ([] ++ derive_toks ++ []). apply lexes_cons; [intros; apply lex_doc; assumption|].
  apply lexes_cons; [|apply lexes_nil]. unfold derive. line Hs.
Qed.
Lemma lex_payload t r : good_payload t -> lex (pr_ty t ++ lit ")," ++ r) = pre (tytoks t ++ [o ")"; o ","]) (lex r).
Proof.
  destruct t as [t|t|p n]; cbn [good_payload pr_ty tytoks]; intros H; [destruct H|destruct H|]. destruct H as [Hp Hn].
  rewrite <- app_assoc. fold (path_str p). rewrite lex_path by (assumption || reflexivity). lexlit. finish.
Qed.
Lemma lex_item it : forall ind, space ind -> good_item it -> lexes (pr_item ind it) (itoks it).
Proof.
  induction it as [it Hit|n l IH] using item_ind'; intros ind Hs Hg.
  - destruct it as [t| |doc n fs|n binds t args|n l|doc n vs|n arms]; cbn [good_item] in Hg.
    + destruct Hg as (uses & Hl & _). apply lexes_one. intros r. rewrite <- app_assoc, Hs. unfold itoks, tokens.
      rewrite (lex_closed_line _ _ _ Hl), Hl. reflexivity.
    + apply lexes_one. intros r. apply lex_nl.
    + destruct Hg as (Hd & Hn & Hf). cbn [pr_item itoks]. destruct fs as [|f fs].
      * apply lexes_app; [apply lexes_derive; assumption|]. apply lexes_one. line Hs.
      * apply lexes_app; [apply lexes_derive; assumption|]. apply lexes_app; [apply lexes_one; line Hs|].
        apply lexes_app; [|apply lexes_one; line Hs].
        apply (lexes_map (fun f => ind ++ lit "    pub " ++ fst f ++ lit ": " ++ pr_ty (snd f) ++ lit ",")).
        intros [x t] Hin r. rewrite Forall_forall in Hf. destruct (Hf _ Hin) as [Hx Ht]. cbn [fst snd] in *.
        rewrite <- !app_assoc, Hs. lexlit. word. lexlit. rewrite lex_ty by (assumption || reflexivity).
        rewrite lex_nl. finish.
    + destruct Hg as (Hn & Hb & Ht & Ha). cbn [pr_item itoks]. apply lexes_impl; [assumption..|]. intros i Hi.
      unfold format_toks. rewrite map_app. apply lexes_app.
      * destruct binds as [|b binds]; [apply lexes_nil|]. set (bs := b :: binds) in *. cbn [map]. apply lexes_one. intros r.
        rewrite <- !app_assoc, Hi. lexlit. word. lexlit. rewrite lex_refs by assumption. lexlit. rewrite lex_nl. finish.
      * cbn [map]. apply lexes_one. intros r. rewrite <- !app_assoc, Hi. lexlit.
        change ([c_quote] ++ t ++ [c_quote] ++ flat_map (fun a => lit ", " ++ a) args ++ lit ")" ++ nl ++ r)
          with ([c_quote] ++ t ++ [c_quote] ++ (flat_map (fun a => lit ", " ++ a) args ++ lit ")" ++ nl ++ r)).
        replace ([c_quote] ++ t ++ [c_quote] ++ (flat_map (fun a => lit ", " ++ a) args ++ lit ")" ++ nl ++ r))
          with (quoted t ++ flat_map (fun a => lit ", " ++ a) args ++ lit ")" ++ nl ++ r)
          by (unfold quoted; rewrite <- !app_assoc; reflexivity).
        rewrite lex_text; [|exact Ht|destruct args; reflexivity]. rewrite lex_args by (assumption || reflexivity).
        lexlit. rewrite lex_nl. finish.
    + destruct Hit.
    + destruct Hg as (Hd & Hn & Hv). cbn [pr_item itoks].
      match goal with |- lexes ([?a; ?b; ?c] ++ ?l) _ => change ([a; b; c] ++ l) with ([a; b] ++ [c] ++ l) end.
      apply lexes_app; [apply lexes_derive; assumption|]. apply lexes_app; [apply lexes_one; line Hs|].
      apply lexes_app; [|apply lexes_one; line Hs].
      apply (lexes_map (fun v => ind ++ lit "    " ++ fst v ++ lit "(" ++ pr_ty (snd v) ++ lit "),")).
      intros [x t] Hin r. rewrite Forall_forall in Hv. destruct (Hv _ Hin) as [Hx Ht]. cbn [fst snd] in *.
      rewrite <- !app_assoc, Hs. lexlit. word. lexlit. rewrite lex_payload by assumption. rewrite lex_nl. finish.
    + destruct Hg as (Hn & Ha). cbn [pr_item itoks]. apply lexes_impl; [assumption..|]. intros i Hi.
      rewrite !map_app. apply lexes_app; [apply lexes_one; line Hi|]. apply lexes_app; [|apply lexes_one; line Hi].
      rewrite map_map. apply lexes_map. intros a Hin r. unfold idents in Ha. rewrite Forall_forall in Ha. specialize (Ha _ Hin).
      unfold arm_toks. line Hi.
  - destruct Hg as [Hn Hl]. cbn [pr_item itoks]. apply lexes_app; [apply lexes_one; line Hs|].
    apply lexes_app; [|apply lexes_one; line Hs]. fold (good_items l) in Hl. apply good_items_all in Hl.
    clear -IH Hl Hs. induction IH as [|it l Hit IH IHl]; [apply lexes_nil|]. inversion Hl; subst. cbn [flat_map].
    apply lexes_app; [apply Hit; [apply space_more; exact Hs|assumption]|]. apply IHl. assumption.
Qed.

(** ** The tokens *)

(** A declaration, and what it is read as. *)
Definition piece : Type := list tok * decl.
Definition reads_as (p : piece) : Prop :=
  fst p <> [] /\ (forall r, r_allow (fst p ++ r) = None) /\
  forall fuel r, length (fst p) <= fuel -> r_decl fuel (fst p ++ r) = Some (snd p, r).
Definition reads_items (ts : list tok) (items : list item) : Prop :=
  exists ps : list piece, flat_map fst ps = ts /\ Forall reads_as ps /\ all_items (map snd ps) = Some items.
Lemma all_items_app a b x y : all_items a = Some x -> all_items b = Some y -> all_items (a ++ b) = Some (x ++ y).
Proof.
  revert x. induction a as [|d a IH]; intros x Ha Hb; cbn [all_items app] in *.
  - injection Ha as <-. exact Hb.
  - destruct d; try discriminate Ha; [apply IH; assumption|].
    destruct (all_items a) as [l|]; [|discriminate]. injection Ha as <-. rewrite (IH l eq_refl Hb). reflexivity.
Qed.
Lemma reads_items_app a b x y : reads_items a x -> reads_items b y -> reads_items (a ++ b) (x ++ y).
Proof.
  intros (ps & Hp1 & Hp2 & Hp3) (qs & Hq1 & Hq2 & Hq3). exists (ps ++ qs). split; [|split].
  - rewrite flat_map_app, <- Hp1, <- Hq1. reflexivity.
  - apply Forall_app. auto.
  - rewrite map_app. apply all_items_app; assumption.
Qed.
Lemma reads_items_one ts it : reads_as (ts, DItem it) -> reads_items ts [it].
Proof.
  intros H. exists [(ts, DItem it)]. split; [apply app_nil_r|]. split; [constructor; [exact H|constructor]|reflexivity].
Qed.
Lemma item_tokens_more : forall ts d a rest, item_tokens d ts = Some (a, []) -> item_tokens d (ts ++ rest) = Some (a, rest).
Proof.
  induction ts as [|t ts IH]; intros d a rest H; [discriminate|]. cbn [app item_tokens] in *.
  assert (Hgo : forall d' k, match item_tokens d' ts with Some (a, b) => Some (t :: a, b) | None => None end = Some (k, []) ->
            match item_tokens d' (ts ++ rest) with Some (a, b) => Some (t :: a, b) | None => None end = Some (k, rest)).
  { intros d' k E. destruct (item_tokens d' ts) as [[x y]|] eqn:E'; [|discriminate]. injection E as <- ->.
    rewrite (IH _ _ rest E'). reflexivity. }
  cbv zeta in *.
  repeat match goal with
  | |- context [if ?c then _ else _] => destruct c
  | |- context [match ?d with O => _ | S _ => _ end] => destruct d
  end; try discriminate H; try (apply Hgo; exact H); injection H as <- ->; reflexivity.
Qed.
Lemma use_reads ts : use_decl ts -> reads_as (ts, DUse ts).
Proof.
  intros (ts' & -> & H). split; [discriminate|]. cbn [fst snd]. split; [reflexivity|]. intros fuel r Hf.
  destruct fuel; [cbn in Hf; lia|]. cbn [r_decl]. apply take_or. unfold r_use. cbn [app]. rewrite key_same.
  change (Word (lit "use") :: ts' ++ r) with ((Word (lit "use") :: ts') ++ r).
  rewrite (item_tokens_more _ _ _ r H). reflexivity.
Qed.
Lemma decl_end fuel r : r_decl fuel (Op (lit "}") :: r) = None.
Proof. destruct fuel; reflexivity. Qed.
Lemma read_type t r : good_ty t -> r_type (tytoks t ++ Op (lit ",") :: r) = Some (t, Op (lit ",") :: r).
Proof.
  destruct t as [t|t|p n]; cbn [good_ty tytoks app]; intros Ht; [| |destruct Ht]; unfold r_type.
  - rewrite skip_or.
    + onward. reflexivity.
    + unfold then_ at 1. unfold key, eat. cbn [tok_eqb]. destruct (str_eqb (lit "Option") t); reflexivity.
  - apply take_or. onward. reflexivity.
Qed.
Lemma read_derive r : r_derive (derive_toks ++ r) = Some (tt, r).
Proof. reflexivity. Qed.
Lemma read_struct doc n fs r : good_item (ItStruct doc n fs) -> r_struct (itoks (ItStruct doc n fs) ++ r) = Some (ItStruct [] n fs, r).
Proof.
  intros (_ & Hn & Hf). unfold r_struct. cbn [itoks]. destruct fs as [|f fs].
  - rewrite <- app_assoc. rewrite (go_on _ _ _ _ _ (read_derive _)). cbn [app]. onward. apply take_or. onward. reflexivity.
  - set (l := f :: fs) in *. clearbody l. rewrite <- !app_assoc. rewrite (go_on _ _ _ _ _ (read_derive _)). cbn [app]. onward.
    rewrite skip_or by reflexivity. onward.
    rewrite (go_on _ _ _ _ _ (list_to_reads "}" (key "pub" ;- get x <- name; op ":" ;- get t <- r_type; done (x, t))
      (fun f => [w "pub"; Word (fst f); o ":"] ++ tytoks (snd f)) (fun f => f) l r eq_refl eq_refl ltac:(
        intros [x t] Hin r'; rewrite Forall_forall in Hf; destruct (Hf _ Hin) as [Hx Ht]; cbn [fst snd app] in *; onward;
        rewrite (go_on _ _ _ _ _ (read_type t r' Ht)); reflexivity))).
    rewrite map_id. reflexivity.
Qed.
Lemma read_enum doc n vs r : good_item (ItEnum doc n vs) -> r_enum (itoks (ItEnum doc n vs) ++ r) = Some (ItEnum [] n vs, r).
Proof.
  intros (_ & Hn & Hv). unfold r_enum. cbn [itoks]. rewrite <- !app_assoc. rewrite (go_on _ _ _ _ _ (read_derive _)).
  cbn [app]. onward.
  match goal with |- context [list_to "}" ?p] =>
    rewrite (go_on _ _ _ _ _ (list_to_reads "}" p
      (fun v => [Word (fst v); o "("] ++ tytoks (snd v) ++ [o ")"]) (fun v => v) vs r eq_refl eq_refl ltac:(
        intros [x t] Hin r'; rewrite Forall_forall in Hv; destruct (Hv _ Hin) as [Hx Ht]; cbn [fst snd app] in *;
        destruct t as [t|t|q m]; cbn [good_payload] in Ht; [destruct Ht|destruct Ht|]; destruct Ht as [Hq Hm]; onward;
        cbn [tytoks]; rewrite <- app_assoc; cbn [app];
        assert (Hp : good_path (q ++ [m])) by
          (split; [intros E; apply app_eq_nil in E; destruct E; discriminate|apply Forall_app; split; [exact Hq|repeat constructor; exact Hm]]);
        rewrite (go_on _ _ _ _ _ (read_path (q ++ [m]) (o ")" :: o "," :: r') Hp eq_refl)); onward;
        rewrite removelast_last, last_last; reflexivity)))
  end.
  rewrite map_id. reflexivity.
Qed.
Lemma read_impl n body it r : is_ident n = true ->
  (forall r, or_ (r_format n) (r_select n) (body ++ o "}" :: r) = Some (it, o "}" :: r)) ->
  r_impl (impl_toks n body ++ r) = Some (it, r).
Proof.
  intros Hn Hb. unfold r_impl, impl_toks. repeat (progress (rewrite <- ?app_assoc; cbn [app])). onward.
  rewrite (go_on _ _ _ _ _ (Hb _)). onward. reflexivity.
Qed.
Lemma read_struct_path n binds t args r : good_item (ItStructPath n binds t args) ->
  r_impl (itoks (ItStructPath n binds t args) ++ r) = Some (ItStructPath n binds t args, r).
Proof.
  intros (Hn & Hb & _ & Ha). cbn [itoks]. apply read_impl; [exact Hn|]. clear r. intros r. apply take_or.
  unfold r_format.
  assert (Hargs : forall r, (key "format" ;- op "!" ;- op "(" ;- get t <- text; get args <- many_ (op "," ;- name); op ")" ;-
              done (ItStructPath n binds t args))
            ([w "format"; o "!"; o "("; Text t] ++ flat_map (fun a => [o ","; Word a]) args ++ o ")" :: r)
          = Some (ItStructPath n binds t args, r)).
  { clear r. intros r. cbn [app]. onward. unfold then_ at 1. cbn [text].
    rewrite (go_on _ _ _ _ _ (many__map (op "," ;- name) (fun a => [o ","; Word a]) (fun a => a) (o ")" :: r) args eq_refl ltac:(
      intros a Hin; unfold idents in Ha; rewrite Forall_forall in Ha; specialize (Ha _ Hin); split; [discriminate|];
      intros r'; cbn [app]; onward; apply name_word; exact Ha))).
    rewrite map_id. onward. reflexivity. }
  unfold format_toks. destruct binds as [|b binds].
  - cbn [app]. erewrite go_on by (rewrite skip_or by reflexivity; reflexivity).
    repeat (progress (rewrite <- ?app_assoc; cbn [app])). apply (Hargs (o "}" :: r)).
  - set (bs := b :: binds) in *. clearbody bs.
    rewrite (go_on _ _ _ bs ([w "format"; o "!"; o "("; Text t] ++ flat_map (fun a => [o ","; Word a]) args ++ o ")" :: o "}" :: r)).
    + apply Hargs.
    + apply take_or. unfold r_binds. repeat (progress (rewrite <- ?app_assoc; cbn [app])). onward.
      rewrite (go_on _ _ _ _ _ (eat_same _ _)). onward.
      match goal with |- then_ _ _ (_ ++ _ :: ?rest) = _ =>
        rewrite (go_on _ _ _ _ _ (list_to_reads "}" (key "ref" ;- name) (fun b => [w "ref"; Word b]) (fun b => b) bs rest eq_refl eq_refl ltac:(
          intros a Hin r'; unfold idents in Hb; rewrite Forall_forall in Hb; specialize (Hb _ Hin);
          cbn [app]; onward; apply name_word; exact Hb)))
      end.
      rewrite map_id. onward. reflexivity.
Qed.
Lemma read_enum_path n arms r : good_item (ItEnumPath n arms) ->
  r_impl (itoks (ItEnumPath n arms) ++ r) = Some (ItEnumPath n arms, r).
Proof.
  intros (Hn & Ha). cbn [itoks]. apply read_impl; [exact Hn|]. clear r. intros r. rewrite skip_or by reflexivity.
  unfold r_select. repeat (progress (rewrite <- ?app_assoc; cbn [app])). onward.
  match goal with |- context [list_to "}" ?p] =>
    rewrite (go_on _ _ _ _ _ (list_to_reads "}" p (arm_toks n) (fun a => a) arms (o "}" :: r) eq_refl eq_refl ltac:(
      intros a Hin r'; unfold idents in Ha; rewrite Forall_forall in Ha; specialize (Ha _ Hin); unfold arm_toks; cbn [app];
      rewrite (go_on _ _ _ _ _ (eat_same _ _)); onward; reflexivity)))
  end.
  rewrite map_id. reflexivity.
Qed.
Lemma piece_short (p : piece) ps : In p ps -> length (fst p) <= length (flat_map fst ps).
Proof.
  induction ps as [|q ps IH]; [intros []|]. cbn [flat_map]. rewrite app_length. intros [->|H]; [lia|]. specialize (IH H). lia.
Qed.
Lemma read_pieces fuel ps r : Forall reads_as ps -> length (flat_map fst ps) <= fuel ->
  many_ (r_decl fuel) (flat_map fst ps ++ o "}" :: r) = Some (map snd ps, o "}" :: r).
Proof.
  intros Hp Hf. apply many__map; [apply decl_end|]. intros p Hin. rewrite Forall_forall in Hp.
  destruct (Hp p Hin) as (H1 & _ & H3). split; [exact H1|]. intros r'. apply H3. pose proof (piece_short p ps Hin). lia.
Qed.
Ltac item_piece := apply reads_items_one; split; [discriminate|]; cbn [fst snd]; split; [reflexivity|]; intros fuel r Hf;
  (destruct fuel; [cbn in Hf; lia|]); cbn [r_decl].
Lemma read_item it : good_item it -> reads_items (itoks it) (bare it).
Proof.
  induction it as [it Hit|n l IH] using item_ind'; intros Hg.
  - destruct it as [t| |doc n fs|n binds t args|n l|doc n vs|n arms].
    + destruct Hg as (uses & Hl & Hu). exists (map (fun u => (u, DUse u)) uses). cbn [itoks bare]. unfold tokens. rewrite Hl.
      split; [|split].
      * clear. induction uses as [|u us IH]; [reflexivity|]. cbn [map flat_map concat fst]. rewrite IH. reflexivity.
      * apply Forall_map. eapply Forall_impl; [|exact Hu]. intros u H. apply use_reads. exact H.
      * clear. induction uses as [|u us IH]; [reflexivity|]. exact IH.
    + exists []. repeat split. constructor.
    + cbn [bare]. assert (Hn : itoks (ItStruct doc n fs) <> []) by (destruct fs; discriminate).
      assert (Hal : forall r, r_allow (itoks (ItStruct doc n fs) ++ r) = None) by (destruct fs; reflexivity).
      assert (Hus : forall r, r_use (itoks (ItStruct doc n fs) ++ r) = None) by (destruct fs; reflexivity).
      apply reads_items_one. split; [exact Hn|]. split; [exact Hal|]. cbn [fst snd]. intros fuel r Hf.
      destruct fuel; [destruct (itoks _); [congruence|cbn in Hf; lia]|]. cbn [r_decl].
      rewrite skip_or by apply Hus. apply take_or. rewrite (go_on _ _ _ _ _ (read_struct doc n fs r Hg)). reflexivity.
    + cbn [bare]. item_piece. other. other. other. apply take_or.
      rewrite (go_on _ _ _ _ _ (read_struct_path n binds t args r Hg)). reflexivity.
    + destruct Hit.
    + cbn [bare]. item_piece. other. other. apply take_or. rewrite (go_on _ _ _ _ _ (read_enum doc n vs r Hg)). reflexivity.
    + cbn [bare]. item_piece. other. other. other. apply take_or.
      rewrite (go_on _ _ _ _ _ (read_enum_path n arms r Hg)). reflexivity.
  - destruct Hg as [Hn Hl]. fold (good_items l) in Hl. apply good_items_all in Hl. cbn [itoks bare].
    assert (Hps : reads_items (flat_map itoks l) (flat_map bare l)).
    { clear -IH Hl. induction IH as [|it l Hit IH IHl]; [exists []; repeat split; constructor|]. inversion Hl; subst.
      cbn [flat_map]. apply reads_items_app; auto. }
    destruct Hps as (ps & H1 & H2 & H3). rewrite <- H1.
    item_piece. other. other. other. other. apply take_or. repeat (progress (rewrite <- ?app_assoc; cbn [app])). onward.
    cbn [length app] in Hf. rewrite app_length in Hf.
    rewrite (go_on _ _ _ _ _ (read_pieces fuel ps r H2 ltac:(lia))). onward. rewrite H3. reflexivity.
Qed.
Lemma read_items l : good_items l -> reads_items (flat_map itoks l) (bare_items l).
Proof.
  intros H. apply good_items_all in H. induction H as [|it l Hit H IH]; [exists []; repeat split; constructor|].
  unfold bare_items. cbn [flat_map]. apply reads_items_app; [apply read_item; exact Hit|exact IH].
Qed.
Lemma lex_items ind l : space ind -> good_items l -> forall r, lex (pr_items ind l ++ r) = pre (flat_map itoks l) (lex r).
Proof.
  intros Hs H. apply good_items_all in H. change (lexes (flat_map (pr_item ind) l) (flat_map itoks l)).
  induction H as [|it l Hit H IH]; [apply lexes_nil|]. cbn [flat_map]. apply lexes_app; [apply lex_item; assumption|exact IH].
Qed.

(** ** The items of a generated module *)

Lemma format_text_char c : format_char c = true -> text_char c = true.
Proof.
  unfold format_char, text_char. cbn [existsb]. rewrite !negb_true_iff, !orb_false_iff, !andb_true_iff, !negb_true_iff. tauto.
Qed.
Lemma holes_text t : forall k, holes t = Some k -> forallb text_char t = true.
Proof.
  assert (H : forall n t, length t <= n -> forall k, holes t = Some k -> forallb text_char t = true).
  2:{ apply (H (length t)). apply le_n. }
  clear t. induction n as [|n IH]; intros t Hl k Hk; (destruct t as [|c t]; [reflexivity|]); cbn [length] in Hl; [lia|].
  cbn [holes] in Hk. destruct (N.eqb_spec c c_lbrace) as [->|Hc].
  - destruct t as [|d t]; [discriminate|]. destruct (N.eqb_spec d c_rbrace) as [->|]; [|discriminate].
    destruct (holes t) as [j|] eqn:E; [|discriminate]. cbn [forallb length] in *. rewrite (IH t ltac:(lia) j E). reflexivity.
  - destruct (format_char c) eqn:E; [|discriminate]. cbn [forallb]. rewrite (format_text_char _ E).
    apply (IH t ltac:(lia) k Hk).
Qed.
Definition typed (a : FlattenedAction) : Prop := forall f, In f (action_fields a) -> is_ident (fd_typ f) = true.
Lemma good_module hs : Forall (fun h => use_line (h_text h)) hs ->
  forall m root, (forall ms a, In (ms, a) (module_actions m) -> typed a) ->
  items_ok root (module_items root hs m) = true -> good_items (module_items root hs m).
Proof.
  intros Hh. induction m as [name acts mods IH] using FM_ind'. intros root Ht Hok.
  unfold items_ok, scope_ok in Hok. cbv zeta in Hok. rewrite !andb_true_iff in Hok.
  destruct Hok as [[[[[Hid _] _] _] Hbeside] Hsub].
  rewrite types_items in Hid. cbn [m_actions m_modules] in Hid. rewrite !forallb_app, !andb_true_iff in Hid.
  destruct Hid as (Hacts & _ & Hmods). rewrite forallb_forall in Hbeside, Hsub, Hacts, Hmods.
  assert (Hcaps : forall a, In a acts -> is_ident (to_caps_case (a_name a)) = true)
    by (intros a Ha; apply Hacts, in_map_iff; eauto).
  assert (Hsnake : forall s, In s mods -> is_ident (to_snake_case (m_name s)) = true)
    by (intros s Hs; apply Hmods, in_map_iff; eauto).
  assert (Hfields : forall a, In a acts -> idents (action_names a)).
  { intros a Ha. assert (Hi : In (hd ItBlank (action_items a)) (module_items root hs (mkModule name acts mods)))
      by (apply in_items; right; left; exists a; split; [exact Ha|left; reflexivity]).
    specialize (Hbeside _ Hi). cbn [hd action_items beside_ok] in Hbeside. apply andb_true_iff in Hbeside.
    destruct Hbeside as [_ Hn]. unfold names_ok in Hn. apply andb_true_iff in Hn. destruct Hn as [Hn _].
    change (forallb is_ident (map fst (action_decl a)) = true) in Hn. rewrite decl_names, forallb_forall in Hn.
    apply Forall_forall. exact Hn. }
  apply good_items_all, Forall_forall. intros it Hit. pose proof (Hbeside _ Hit) as Hb. pose proof (Hsub _ Hit) as Hs.
  apply in_items in Hit. cbn [m_actions m_modules] in Hit.
  destruct Hit as [Hit|[(a & Ha & Hit)|[(s & Hs' & Hit)|Hit]]].
  - unfold header_items in Hit. apply in_app_iff in Hit. destruct Hit as [Hit|Hit].
    + apply in_map_iff in Hit. destruct Hit as (h & <- & Hin). rewrite Forall_forall in Hh. exact (Hh _ Hin).
    + destruct hs; [destruct Hit|]. destruct Hit as [<-|[]]. exact I.
  - assert (Hta : typed a).
    { apply (Ht [] a). cbn [module_actions]. apply in_app_iff. left. apply in_map_iff. exists a. auto. }
    destruct Hit as [<-|[<-|[<-|[<-|[]]]]]; try exact I; cbn [good_item].
    + cbn [beside_ok] in Hb. apply andb_true_iff in Hb. destruct Hb as [Hd _].
      split; [exact Hd|]. split; [auto|]. apply Forall_forall. intros f Hf. fold (action_decl a) in Hf. split.
      * specialize (Hfields a Ha). unfold idents in Hfields. rewrite Forall_forall in Hfields. apply Hfields.
        rewrite <- decl_names. apply in_map. exact Hf.
      * assert (Hin : In (field_of f) (action_fields a)) by (rewrite <- field_of_decl; apply in_map; exact Hf).
        specialize (Hta _ Hin). unfold action_decl in Hf. apply in_app_iff in Hf.
        destruct Hf as [Hf|Hf]; apply in_map_iff in Hf; destruct Hf as (p & <- & _); exact Hta.
    + cbn [beside_ok] in Hb. destruct (lookup _ _) as [fs|]; [|discriminate]. rewrite !andb_true_iff in Hb.
      destruct Hb as [[_ Hho] _].
      match goal with H : context [holes ?t] |- _ => destruct (holes t) as [k|] eqn:Ek; [|discriminate] end.
      split; [auto|]. split; [auto|]. split; [eapply holes_text; exact Ek|].
      specialize (Hfields a Ha). unfold action_names, idents in *. apply Forall_app in Hfields. tauto.
  - destruct Hit as [->| ->]; [|exact I]. split; [auto|]. apply (IH s Hs' false).
    + intros ms a Ha. apply (Ht (m_name s :: ms) a). cbn [module_actions]. apply in_app_iff. right. apply in_concat.
      eexists. split; [apply in_map; exact Hs'|]. apply in_map_iff. exists (ms, a). auto.
    + cbn [item_ok] in Hs. exact Hs.
  - assert (Hv : idents (map fst (variants (mkModule name acts mods))) /\ doc_line (enum_doc root name) = true).
    { assert (Hi : In (hd ItBlank (enum_items root (mkModule name acts mods))) (module_items root hs (mkModule name acts mods)))
        by (apply in_items; right; right; right; left; reflexivity).
      specialize (Hbeside _ Hi). cbn [hd enum_items beside_ok m_name] in Hbeside. rewrite !andb_true_iff in Hbeside.
      destruct Hbeside as [[Hd Hn] _]. unfold names_ok in Hn. apply andb_true_iff in Hn. destruct Hn as [Hn _].
      split; [|exact Hd]. apply Forall_forall. rewrite forallb_forall in Hn. exact Hn. }
    destruct Hv as [Hv Hd]. destruct Hit as [<-|[<-|[<-|[]]]]; try exact I; cbn [good_item m_name].
    + split; [exact Hd|]. split; [reflexivity|]. apply Forall_forall. intros v Hin. split.
      * unfold idents in Hv. rewrite Forall_forall in Hv. apply Hv. apply in_map. exact Hin.
      * cbn [m_actions m_modules] in Hin. apply in_app_iff in Hin.
        destruct Hin as [Hin|Hin]; apply in_map_iff in Hin; destruct Hin as (x & <- & Hx); cbn [snd good_payload].
        -- split; [constructor|auto].
        -- split; [constructor; [auto|constructor]|reflexivity].
    + split; [reflexivity|]. rewrite variants_names in Hv. exact Hv.
Qed.
