(** * GenFacts: the generated text is the rendering of the generated program *)
From Verif Require Import Base Core Trie Flat MiniRust Gen BaseFacts.

(** [renders a r]: the run [a] ends with the status of [r] and, if that is
    success, has written exactly the text of [r]. *)
Definition renders (a : W) (r : res str) : Prop :=
  match r with
  | ROk s => snd a = ROk tt /\ w_text a = s
  | RErr e => snd a = RErr e
  | RPanic p => snd a = RPanic p
  | RFuel => snd a = RFuel
  end.
Definition rmap {A B} (f : A -> B) (r : res A) : res B := rbind r (fun a => ROk (f a)).

Lemma renders_seq a b s r :
  renders a (ROk s) -> renders b r -> renders (a >> b) (rmap (fun t => s ++ t) r).
Proof.
  destruct a as [l [[]| | |]]; intros [Ha <-]; try discriminate.
  destruct b as [l' st]. unfold renders, w_text; simpl.
  destruct r; simpl; auto.
  intros [-> <-]. split; auto. rewrite concat_app. reflexivity.
Qed.
Lemma renders_seq_ok a b s t :
  renders a (ROk s) -> renders b (ROk t) -> renders (a >> b) (ROk (s ++ t)).
Proof. intros H1 H2. apply (renders_seq a b s (ROk t) H1 H2). Qed.
Lemma renders_ok : renders w_ok (ROk []).
Proof. split; reflexivity. Qed.
Lemma renders_w s : renders (w s) (ROk s).
Proof. split; [reflexivity|]. unfold w_text; simpl. apply app_nil_r. Qed.
Lemma renders_wl s : renders (wl s) (ROk (s ++ nl)).
Proof. split; [reflexivity|]. unfold w_text; simpl. apply app_nil_r. Qed.
Lemma renders_all {A} (f : A -> W) (g : A -> str) l :
  (forall x, In x l -> renders (f x) (ROk (g x))) ->
  renders (w_all (map f l)) (ROk (concat (map g l))).
Proof.
  induction l as [|x l IH]; intros H; simpl.
  - apply renders_ok.
  - apply renders_seq_ok; [apply H; left; auto | apply IH; intros; apply H; right; auto].
Qed.
Lemma renders_bind_err a b r :
  (forall s, r <> ROk s) -> renders a r -> renders (a >> b) r.
Proof.
  destruct a as [l st], r; unfold renders; simpl; intros Hn H; subst; auto.
  exfalso. eapply Hn; reflexivity.
Qed.
(** The general rule: a part that may fail, then the rest. *)
Lemma renders_seq_gen {A} a b (r : res A) (f : A -> str) (g : A -> res str) :
  renders a (rmap f r) ->
  (forall x, r = ROk x -> renders b (g x)) ->
  renders (a >> b) (rbind r (fun x => rmap (fun t => f x ++ t) (g x))).
Proof.
  destruct r as [x|e|p|]; unfold rmap; simpl rbind; intros Ha Hb.
  - apply renders_seq; auto.
  - apply renders_bind_err; auto; congruence.
  - apply renders_bind_err; auto; congruence.
  - apply renders_bind_err; auto; congruence.
Qed.
Lemma renders_eq a s t : renders a (ROk s) -> s = t -> renders a (ROk t).
Proof. intros H <-; exact H. Qed.

Lemma spaces4_S d : spaces4 (S d) = spaces4 d ++ lit "    ".
Proof.
  induction d as [|d IH]; [reflexivity|].
  change (spaces4 (S (S d))) with (lit "    " ++ spaces4 (S d)).
  rewrite IH at 1. rewrite app_assoc. reflexivity.
Qed.

(** ** write_methods *)
Lemma route_nest_spec ms : forall path acc parens,
  route_nest path acc parens ms =
  (fst (pr_nest path (map (fun m => (to_snake_case m, to_caps_case m)) ms)),
   acc ++ snd (pr_nest path (map (fun m => (to_snake_case m, to_caps_case m)) ms)),
   parens ++ repeat 41%N (length ms)).
Proof.
  induction ms as [|m ms IH]; intros path acc parens; simpl.
  - rewrite !app_nil_r. reflexivity.
  - rewrite IH. destruct (pr_nest _ _) as [p a]; simpl.
    rewrite <- !app_assoc. simpl. rewrite <- !app_assoc. reflexivity.
Qed.

Ltac step := first [apply renders_w | apply renders_wl | apply renders_seq_ok].
Ltac lits :=
  repeat match goal with
         | |- context [lit ?s] => let v := eval vm_compute in (lit s) in change (lit s) with v
         end.
Ltac norm :=
  cbv [nl quoted byte_lit s_i s_len s_path s_method s_text s_start pr_block_of pr_arm_block
       pr_arm_inline pr_simple pr_ret pr_expr pr_expr_tight pr_slice pr_scrut];
  rewrite ?spaces4_S; lits; rewrite <- ?app_assoc; cbn [app]; rewrite <- ?app_assoc; cbn [app].

Lemma concat_map_app {A B} (f : A -> list B) l1 l2 :
  concat (map f (l1 ++ l2)) = concat (map f l1) ++ concat (map f l2).
Proof. rewrite map_app, concat_app. reflexivity. Qed.

Lemma write_resource_renders d route r :
  renders (write_resource (spaces4 d) route r)
    (ROk (pr_arm_inline (spaces4 (S (S d))) (byte_lit (method_display (r_method r)))
            [SReturn (resource_ret route r)])).
Proof.
  unfold write_resource. rewrite route_nest_spec.
  set (field := fun f (p : Param) => spaces4 (S (S d)) ++ lit "    " ++ pr_field (p_name p, f) ++ nl).
  eapply renders_eq.
  { apply renders_seq_ok; [apply renders_wl|].
    apply renders_seq_ok; [apply (renders_all _ (field FVar)); intros p _|].
    { eapply renders_eq; [apply renders_wl|]. unfold field, pr_field. norm. reflexivity. }
    apply renders_seq_ok; [apply (renders_all _ (field FNone)); intros p _|].
    { eapply renders_eq; [apply renders_wl|]. unfold field, pr_field. norm. reflexivity. }
    apply renders_seq_ok; [apply (renders_all _ (field FNone)); intros p _|].
    { eapply renders_eq; [apply renders_wl|]. unfold field, pr_field. norm. reflexivity. }
    apply renders_wl. }
  unfold pr_arm_inline, pr_ret, resource_ret.
  rewrite map_length. unfold module_names.
  destruct (pr_nest [] (map (fun m => (to_snake_case m, to_caps_case m)) (r_modules r))) as [path nest].
  rewrite !concat_map_app, !map_map. cbn [fst snd].
  change (fun x : Param => spaces4 (S (S d)) ++ lit "    " ++ pr_field (p_name x, FVar) ++ nl)
    with (field FVar).
  change (fun x : Param => spaces4 (S (S d)) ++ lit "    " ++ pr_field (p_name x, FNone) ++ nl)
    with (field FNone).
  clearbody field.
  unfold method_byte_str. norm. reflexivity.
Qed.

Lemma renders_conv a r r' : renders a r -> r = r' -> renders a r'.
Proof. intros H <-; exact H. Qed.

(** One arm, as [pr_stmt] prints it. *)
Definition pr_arm (d : nat) (a : arm_head * list stmt) : str :=
  let (h, body) := a in
  match h with
  | AHBlock t => pr_arm_block (spaces4 (S d)) t (pr_block (S (S d)) body)
  | AHInline t => pr_arm_inline (spaces4 (S d)) (byte_lit t) body
  | AHWild => pr_arm_inline (spaces4 (S d)) (lit "_") body
  | AHWildUnit => spaces4 (S d) ++ lit "_ => {}," ++ nl
  | AHSomeSlash => spaces4 (S d) ++ lit "Some('/') => {}" ++ nl
  | AHStmts => pr_block d body
  end.
Definition pr_arms (d : nat) (l : list (arm_head * list stmt)) : str := concat (map (pr_arm d) l).
Lemma pr_stmt_match d sc arms :
  pr_stmt d (SMatch sc arms) = pr_block_of (spaces4 d) (lit "match " ++ pr_scrut sc) (pr_arms d arms).
Proof. reflexivity. Qed.
Lemma pr_stmt_if d c b :
  pr_stmt d (SIf c b) = pr_block_of (spaces4 d) (lit "if " ++ pr_bexpr c) (pr_block (S d) b).
Proof. reflexivity. Qed.
Lemma pr_stmt_while d c b :
  pr_stmt d (SWhile c b) = pr_block_of (spaces4 d) (lit "while " ++ pr_bexpr c) (pr_block (S d) b).
Proof. reflexivity. Qed.
Lemma pr_block_cons d s b : pr_block d (s :: b) = pr_stmt d s ++ pr_block d b.
Proof. reflexivity. Qed.
Lemma pr_block_nil d : pr_block d [] = [].
Proof. reflexivity. Qed.
Lemma pr_block_app d a b : pr_block d (a ++ b) = pr_block d a ++ pr_block d b.
Proof. apply concat_map_app. Qed.
Lemma pr_arms_cons d a l : pr_arms d (a :: l) = pr_arm d a ++ pr_arms d l.
Proof. reflexivity. Qed.
Lemma pr_arms_app d a b : pr_arms d (a ++ b) = pr_arms d a ++ pr_arms d b.
Proof. apply concat_map_app. Qed.
Lemma pr_arms_nil d : pr_arms d [] = [].
Proof. reflexivity. Qed.

Ltac pr :=
  unfold expect, not_found, i_eq_len, path_slice;
  repeat first
    [ rewrite pr_block_app | rewrite pr_block_cons | rewrite pr_block_nil
    | rewrite pr_stmt_match | rewrite pr_stmt_if | rewrite pr_stmt_while
    | rewrite pr_arms_cons | rewrite pr_arms_nil
    | progress cbn [pr_stmt pr_arm pr_simple pr_bexpr pr_scrut pr_expr pr_ret] ];
  rewrite ?app_nil_r; norm.

Lemma write_methods_renders route d :
  renders (write_methods route d) (ROk (pr_stmt d (methods_stmt route))).
Proof.
  unfold write_methods, methods_stmt.
  eapply renders_eq.
  { do 2 (apply renders_seq_ok; [apply renders_wl|]).
    apply renders_seq_ok.
    { apply (renders_all _ (fun r => pr_arm_inline (spaces4 (S (S d)))
               (byte_lit (method_display (r_method r))) [SReturn (resource_ret route r)])).
      intros; apply write_resource_renders. }
    do 2 (apply renders_seq_ok; [apply renders_wl|]). apply renders_wl. }
  rewrite pr_stmt_if, pr_block_cons, pr_block_nil, app_nil_r, pr_stmt_match, pr_arms_app.
  unfold pr_arms at 1. rewrite map_map. cbn [pr_arm].
  set (X := concat _). clearbody X. unfold i_eq_len. pr. reflexivity.
Qed.

Lemma methods_block_renders d o :
  renders (match has_resources o with Some route => write_methods route d | None => w_ok end)
    (ROk (pr_block d (methods_block o))).
Proof.
  unfold methods_block. destruct (has_resources o) as [route|].
  - rewrite pr_block_cons, pr_block_nil, app_nil_r. apply write_methods_renders.
  - apply renders_ok.
Qed.

Section Rec.
Variable wrec : ctrie -> nat -> W.
Variable grec : ctrie -> res (list stmt).
Hypothesis Hrec : forall t d, renders (wrec t d) (rmap (pr_block d) (grec t)).

Lemma write_dynamic_renders t d name :
  renders (write_dynamic wrec t d name) (rmap (pr_block d) (gen_dynamic grec t name)).
Proof.
  unfold write_dynamic, gen_dynamic.
  eapply renders_conv.
  { do 9 (apply renders_seq; [apply renders_wl|]).
    instantiate (1 := match t_children t with
                      | [(CSeparator, _)] => rmap (pr_block d) (grec t)
                      | _ => RErr InvalidInput
                      end).
    destruct (t_children t) as [|[[c|n|] t'] [|? ?]]; try reflexivity. apply Hrec. }
  destruct (t_children t) as [|[[c|n|] t'] [|? ?]]; try reflexivity.
  destruct (grec t) as [b|e|p|]; try reflexivity.
  unfold rmap; cbn [rbind]. f_equal. unfold dynamic_block. pr. reflexivity.
Qed.

Lemma write_arms_renders d l :
  renders (write_arms wrec d l) (rmap (pr_arms d) (gen_arms grec l)).
Proof.
  induction l as [|[[c|n|] t] l IH]; cbn [write_arms gen_arms].
  - apply renders_ok.
  - eapply renders_conv.
    { do 2 (apply renders_seq; [apply renders_wl|]).
      apply (renders_seq_gen (wrec t (d + 2)) _ (grec t) (pr_block (d + 2))
               (fun _ => rmap (fun s => (spaces4 (S d) ++ lit "},") ++ nl ++ s) (rmap (pr_arms d) (gen_arms grec l)))).
      - apply Hrec.
      - intros b _. eapply renders_conv; [apply renders_seq; [apply renders_wl|apply IH]|].
        destruct (gen_arms grec l); try reflexivity. unfold rmap; cbn [rbind].
        rewrite <- !app_assoc. reflexivity. }
    destruct (grec t) as [b|e|p|]; try reflexivity.
    destruct (gen_arms grec l) as [arms|e|p|]; try reflexivity.
    unfold rmap; cbn [rbind]. f_equal.
    replace (d + 2) with (S (S d)) by lia. pr. reflexivity.
  - eapply renders_conv; [apply write_dynamic_renders|].
    destruct (gen_dynamic grec t n) as [b|e|p|]; try reflexivity.
    unfold rmap; cbn [rbind]. rewrite pr_arms_cons, pr_arms_nil, app_nil_r. reflexivity.
  - eapply renders_conv; [apply renders_seq; [apply renders_wl|apply IH]|].
    destruct (gen_arms grec l) as [arms|e|p|]; try reflexivity.
    unfold rmap; cbn [rbind]. rewrite pr_arms_cons. cbn [pr_arm]. rewrite <- !app_assoc. reflexivity.
Qed.
End Rec.


Section Rec2.
Variable wrec : ctrie -> nat -> W.
Variable grec : ctrie -> res (list stmt).
Hypothesis Hrec : forall t d, renders (wrec t d) (rmap (pr_block d) (grec t)).

Ltac line := apply renders_seq; [apply renders_wl|].

Lemma write_many_renders t d :
  renders (write_many wrec t d) (rmap (pr_block d) (gen_many grec t)).
Proof.
  unfold write_many, gen_many. cbv zeta.
  set (start := match find_dynamic (t_children t) with
                | Some _ => [SBlank; SLet s_start (EVar s_i); SBlank]
                | None => []
                end).
  assert (Hstart : renders (match find_dynamic (t_children t) with
                            | Some _ => wl [] >> wl (spaces4 d ++ lit "let start = i;") >> wl []
                            | None => w_ok
                            end) (ROk (pr_block d start))).
  { unfold start. destruct (find_dynamic (t_children t)); [|apply renders_ok].
    eapply renders_eq.
    - apply renders_seq_ok; [apply renders_wl|]. apply renders_seq_ok; apply renders_wl.
    - pr. reflexivity. }
  destruct (unamb t) as [[u l] next]. cbv beta iota.
  set (n := if (l =? 0)%nat then 1 else l). clearbody n.
  destruct u as [|uc u].
  - eapply renders_conv.
    { apply renders_seq; [apply Hstart|]. do 4 line.
      apply (renders_seq_gen (write_arms wrec d (t_children t)) _ (gen_arms grec (t_children t)) (pr_arms d)
        (fun _ => ROk (((spaces4 d ++ lit "    _ => return Ok(Match::NotFound),") ++ nl)
                       ++ (spaces4 d ++ lit "}") ++ nl))).
      - apply write_arms_renders, Hrec.
      - intros _ _. apply renders_seq_ok; apply renders_wl. }
    destruct (gen_arms grec (t_children t)) as [arms|e|p|]; try reflexivity.
    unfold rmap; cbn [rbind]. f_equal.
    rewrite pr_block_app. f_equal. clear. rewrite !pr_block_cons, pr_stmt_match, pr_arms_app.
    pr. reflexivity.
  - destruct (find_dynamic (t_children t)) as [[name dchild]|].
    + eapply renders_conv.
      { apply renders_seq; [apply Hstart|].
        apply renders_seq.
        { instantiate (1 := spaces4 d ++ lit "if " ++
            pr_bexpr (if (n =? 1)%nat then BLe (EVar s_i) (EVar s_len) else BLe (EPlus s_i n) (EVar s_len))
            ++ lit " {" ++ nl).
          destruct (Nat.eqb n 1); (eapply renders_eq; [apply renders_wl|]);
            cbn [pr_bexpr]; norm; reflexivity. }
        do 3 line.
        apply (renders_seq_gen (wrec next (d + 3)) _ (grec next) (pr_block (d + 3))
          (fun _ => rmap (fun s =>
             ((spaces4 (S d) ++ lit "    },") ++ nl)
             ++ ((spaces4 (S d) ++ lit "    _ => {},") ++ nl)
             ++ ((spaces4 (S d) ++ lit "}") ++ nl)
             ++ ((spaces4 d ++ lit "}") ++ nl) ++ s) (rmap (pr_block d) (gen_dynamic grec dchild name)))).
        - apply Hrec.
        - intros _ _. eapply renders_conv.
          { do 4 line. apply write_dynamic_renders, Hrec. }
          destruct (gen_dynamic grec dchild name); reflexivity. }
      destruct (grec next) as [b|e|p|]; try reflexivity.
      destruct (gen_dynamic grec dchild name) as [b'|e|p|]; try reflexivity.
      unfold rmap; cbn [rbind]. f_equal.
      rewrite pr_block_app. f_equal. clear. replace (d + 3) with (S (S (S d))) by lia.
      set (c := if (n =? 1)%nat then _ else _). clearbody c.
      pr. reflexivity.
    + eapply renders_conv; [apply renders_seq; [apply Hstart|]|].
      * instantiate (1 := RPanic PanicAssert). reflexivity.
      * reflexivity.
Qed.

Lemma write_children_renders t d :
  renders (write_children wrec t d) (rmap (pr_block d) (gen_children grec t)).
Proof.
  unfold write_children, gen_children. cbv zeta.
  destruct (t_children t) as [|[[ch|name|] child] [|? ?]]; try apply write_many_renders.
  - eapply renders_eq; [apply renders_wl|]. pr. reflexivity.
  - destruct (chase child) as [more child']. cbv beta iota zeta.
    set (u := ch :: more). clearbody u. set (n := byte_len u). clearbody n.
    eapply renders_conv.
    { apply renders_seq.
      { instantiate (1 := spaces4 d ++ lit "if " ++
            pr_bexpr (if (n =? 1)%nat then i_eq_len else BGt (EPlus s_i n) (EVar s_len))
            ++ lit " {" ++ nl).
          destruct (Nat.eqb n 1); (eapply renders_eq; [apply renders_wl|]); unfold i_eq_len;
            cbn [pr_bexpr]; norm; reflexivity. }
      do 8 line. apply Hrec. }
    destruct (grec child') as [b|e|p|]; try reflexivity.
    unfold rmap; cbn [rbind]. f_equal.
    set (c := if (n =? 1)%nat then _ else _). clearbody c. pr. reflexivity.
  - eapply renders_conv.
    { line. apply write_dynamic_renders, Hrec. }
    destruct (gen_dynamic grec child name) as [b|e|p|]; try reflexivity.
    unfold rmap; cbn [rbind]. f_equal. pr. reflexivity.
  - eapply renders_conv.
    { apply renders_seq.
      { instantiate (1 := pr_stmt d match has_resources (t_data child) with
                                    | Some route => methods_stmt route
                                    | None => SIf i_eq_len [not_found]
                                    end).
        destruct (has_resources (t_data child)); [apply write_methods_renders|].
        eapply renders_eq.
        - apply renders_seq_ok; [apply renders_wl|]. apply renders_seq_ok; apply renders_wl.
        - pr. reflexivity. }
      do 6 line. apply Hrec. }
    destruct (grec child) as [b|e|p|]; try reflexivity.
    unfold rmap; cbn [rbind]. f_equal.
    set (c := match has_resources (t_data child) with Some _ => _ | None => _ end). clearbody c.
    rewrite pr_block_cons. f_equal. pr. reflexivity.
Qed.
End Rec2.

Lemma codegen_trie_renders fuel : forall t d,
  renders (codegen_trie fuel t d) (rmap (pr_block d) (gen_trie fuel t)).
Proof.
  induction fuel as [|fuel IH]; intros t d; [reflexivity|].
  cbn [codegen_trie gen_trie].
  eapply renders_conv.
  { apply renders_seq; [apply methods_block_renders|]. apply write_children_renders, IH. }
  destruct (gen_children (gen_trie fuel) t) as [b|e|p|]; try reflexivity.
  unfold rmap; cbn [rbind]. rewrite pr_block_app. reflexivity.
Qed.
