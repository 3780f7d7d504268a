(** * CostFacts: the cost of running a generated matcher *)
From Verif Require Import Base Core Trie Flat MiniRust Gen Spec SpecMatch SpecCost BaseFacts TrieFacts GenFacts ExecFacts CompFacts
  MatchFacts MatchThms.

Fixpoint stmt_ind' (P : stmt -> Prop)
  (H0 : forall s, compound s = false -> P s)
  (Hw : forall c body, Forall P body -> P (SWhile c body))
  (Hi : forall c body, Forall P body -> P (SIf c body))
  (Hm : forall sc arms, Forall (fun a : arm_head * list stmt => Forall P (snd a)) arms -> P (SMatch sc arms))
  (s : stmt) {struct s} : P s :=
  let block := (fix block l : Forall P l :=
    match l with [] => Forall_nil P | s :: l' => Forall_cons s (stmt_ind' P H0 Hw Hi Hm s) (block l') end) in
  match s with
  | SWhile c body => Hw c body (block body)
  | SIf c body => Hi c body (block body)
  | SMatch sc arms =>
      Hm sc arms ((fix go l : Forall (fun a : arm_head * list stmt => Forall P (snd a)) l :=
        match l with
        | [] => Forall_nil _
        | (h, body) :: l' => Forall_cons (h, body) (block body : Forall P (snd (h, body))) (go l')
        end) arms)
  | s => H0 s eq_refl
  end.

Section Cost.
Context {T E : Type}.
Variable rt : runtime T E.
Variable senv : struct_env.

Definition settled (o : outcome T E) : Prop := o <> OFuel /\ o <> OStuck.
Lemma settled_leave en o : settled (leave en o) -> settled o.
Proof. unfold settled. destruct o; simpl; intuition discriminate. Qed.

(** Every run of the interpreter that ends has a cost. *)
Lemma block_takes fuel l : Forall (fun s => forall en rest, settled (exec_stmt rt senv fuel en s rest) ->
    exists n, takes rt senv en s rest n (exec_stmt rt senv fuel en s rest)) l ->
  forall en, settled (exec_block rt senv fuel en l) ->
  exists n, takes_block rt senv en l n (exec_block rt senv fuel en l).
Proof.
  induction 1 as [|s l Hs Hl IH]; intros en Ho.
  - exists 0. constructor.
  - rewrite exec_block_cons in *. destruct (Hs en l) as [n Hn].
    + destruct (exec_stmt rt senv fuel en s l); auto; split; discriminate.
    + destruct (exec_stmt rt senv fuel en s l) as [en'| | | |] eqn:Ee.
      2-5: exists n; apply takes_stop; [exact Hn|intros; discriminate].
      destruct (IH en' Ho) as [m Hm]. exists (n + m). eapply takes_cons; eauto.
Qed.
Lemma stmt_takes fuel : forall s en rest, settled (exec_stmt rt senv fuel en s rest) ->
  exists n, takes rt senv en s rest n (exec_stmt rt senv fuel en s rest).
Proof.
  induction s as [s Hs|c body IH|c body IH|sc arms IH] using stmt_ind'; intros en rest Ho.
  - exists 1. assert (Hf : exec_stmt rt senv fuel en s rest = exec_stmt rt senv 0 en s rest)
      by (destruct s; try discriminate; reflexivity).
    rewrite Hf. apply takes_simple. exact Hs.
  - rewrite exec_stmt_while in *. revert Ho. generalize fuel at 2 4. intros k. revert en.
    induction k as [|k IHk]; intros en Ho; [destruct Ho; cbn [exec_loop] in *; congruence|].
    cbn [exec_loop] in *. destruct (eval_bexpr rt en c) as [[[|]|]|] eqn:Ec.
    + destruct (block_takes fuel body IH en) as [n Hn].
      { destruct (exec_block rt senv fuel en body); cbn [leave] in Ho; auto; split; discriminate. }
      destruct (exec_block rt senv fuel en body) as [en'| | | |]; cbn [leave] in *.
      2-5: exists (S n); eapply takes_while_out; eauto; intros; discriminate.
      destruct (IHk _ Ho) as [m Hm]. exists (S n + m). eapply takes_while_again; eauto.
    + exists 1. apply takes_while_no. exact Ec.
    + exists 1. apply takes_while_panic. exact Ec.
    + destruct Ho. congruence.
  - rewrite exec_stmt_if in *. destruct (eval_bexpr rt en c) as [[[|]|]|] eqn:Ec.
    + destruct (block_takes fuel body IH en (settled_leave _ _ Ho)) as [n Hn].
      exists (S n). apply takes_if_yes; auto.
    + exists 1. apply takes_if_no. exact Ec.
    + exists 1. apply takes_if_panic. exact Ec.
    + destruct Ho. congruence.
  - rewrite exec_stmt_match in *. destruct (eval_scrut rt en sc) as [[v|]|] eqn:Es.
    + assert (Ha : exists arm, find (fun a => arm_matches (fst a) v) arms = Some arm /\
                     exec_arms rt senv fuel en v arms = leave en (exec_block rt senv fuel en (snd arm))).
      { clear IH Es. induction arms as [|[h body] arms IHa]; cbn [exec_arms find fst] in *.
        - destruct Ho. congruence.
        - destruct (arm_matches h v); [exists (h, body); auto|apply IHa; exact Ho]. }
      destruct Ha as (arm & Ha & He). rewrite He in *.
      assert (Hin : In arm arms) by (eapply find_some; eauto).
      rewrite Forall_forall in IH.
      destruct (block_takes fuel (snd arm) (IH _ Hin) en (settled_leave _ _ Ho)) as [n Hn].
      exists (S n). eapply takes_match; eauto.
    + exists 1. apply takes_match_panic. exact Es.
    + destruct Ho. congruence.
Qed.
Lemma exec_takes fuel en l : settled (exec_block rt senv fuel en l) ->
  exists n, takes_block rt senv en l n (exec_block rt senv fuel en l).
Proof. apply block_takes. apply Forall_forall. intros s _. apply stmt_takes. Qed.

(** The cost semantics is a function. *)
Scheme takes_mut := Induction for takes Sort Prop
with takes_block_mut := Induction for takes_block Sort Prop.
Combined Scheme takes_both from takes_mut, takes_block_mut.
Lemma takes_fun :
  (forall en s rest n o, takes rt senv en s rest n o -> forall n' o', takes rt senv en s rest n' o' -> n = n' /\ o = o') /\
  (forall en l n o, takes_block rt senv en l n o -> forall n' o', takes_block rt senv en l n' o' -> n = n' /\ o = o').
Proof.
  apply takes_both.
  - intros en s rest Hs n' o' H. inversion H; subst; try discriminate. auto.
  - intros en c body rest Hc n' o' H. inversion H; subst; try discriminate; try congruence; auto.
  - intros en c body rest Hc n' o' H. inversion H; subst; try discriminate; try congruence; auto.
  - intros en c body rest n o Hc Hb IH n' o' H. inversion H; subst; try discriminate; try congruence.
    match goal with X : takes_block _ _ _ body _ _ |- _ => destruct (IH _ _ X) as [<- <-] end. auto.
  - intros en sc arms rest Hc n' o' H. inversion H; subst; try discriminate; try congruence; auto.
  - intros en sc arms rest v arm n o Hc Hf Hb IH n' o' H. inversion H; subst; try discriminate; try congruence.
    assert (v0 = v) by congruence. subst v0. assert (arm0 = arm) by congruence. subst arm0.
    match goal with X : takes_block _ _ _ (snd arm) _ _ |- _ => destruct (IH _ _ X) as [<- <-] end. auto.
  - intros en c body rest Hc n' o' H. inversion H; subst; try discriminate; try congruence; auto.
  - intros en c body rest Hc n' o' H. inversion H; subst; try discriminate; try congruence; auto.
  - intros en c body rest n en' m o Hc Hb IH Hw IHw n' o' H. inversion H; subst; try discriminate; try congruence.
    + match goal with X : takes_block _ _ _ body _ _ |- _ => destruct (IH _ _ X) as [<- [= <-]] end.
      match goal with X : takes _ _ _ (SWhile c body) _ _ _ |- _ => destruct (IHw _ _ X) as [<- <-] end. auto.
    + match goal with X : takes_block _ _ _ body _ _ |- _ => destruct (IH _ _ X) as [_ Heq] end. symmetry in Heq.
      exfalso. match goal with X : forall en', _ <> _ |- _ => apply (X _ Heq) end.
  - intros en c body rest n o Hc Hb IH Hn n' o' H. inversion H; subst; try discriminate; try congruence.
    + match goal with X : takes_block _ _ _ body _ _ |- _ => destruct (IH _ _ X) as [_ Heq] end.
      exfalso. apply (Hn _ Heq).
    + match goal with X : takes_block _ _ _ body _ _ |- _ => destruct (IH _ _ X) as [<- <-] end. auto.
  - intros en n' o' H. inversion H; subst. auto.
  - intros en s l n en' m o Hs IHs Hl IHl n' o' H. inversion H; subst.
    + match goal with X : takes _ _ _ s _ _ _ |- _ => destruct (IHs _ _ X) as [<- [= <-]] end.
      match goal with X : takes_block _ _ _ l _ _ |- _ => destruct (IHl _ _ X) as [<- <-] end. auto.
    + match goal with X : takes _ _ _ s _ _ _ |- _ => destruct (IHs _ _ X) as [_ Heq] end. symmetry in Heq.
      exfalso. match goal with X : forall en', _ <> _ |- _ => apply (X _ Heq) end.
  - intros en s l n o Hs IHs Hn n' o' H. inversion H; subst.
    + match goal with X : takes _ _ _ s _ _ _ |- _ => destruct (IHs _ _ X) as [_ Heq] end.
      exfalso. apply (Hn _ Heq).
    + match goal with X : takes _ _ _ s _ _ _ |- _ => destruct (IHs _ _ X) as [<- <-] end. auto.
Qed.

(** ** Programs whose loops only advance [i] towards [len] *)
Definition other (x : str) : Prop := x <> s_i /\ x <> s_len.
Inductive calm : stmt -> Prop :=
| calm_blank : calm SBlank
| calm_let x e : other x -> calm (SLet x e)
| calm_utf8 x src a b : other x -> calm (SLetUtf8 x src a b)
| calm_parse x src what : other x -> calm (SLetParse x src what)
| calm_add n : calm (SAdd s_i n)
| calm_while c : calm (SWhile (BAnd (BLt (EVar s_i) (EVar s_len)) c) [SAdd s_i 1])
| calm_if c body : Forall calm body -> calm (SIf c body)
| calm_match sc arms : (forall h body, In (h, body) arms -> Forall calm body) -> calm (SMatch sc arms)
| calm_return r : calm (SReturn r).

(** [i] and [len] in the environment, and what it has grown by. *)
Definition counts (en : env T) (i L : nat) : Prop :=
  lookup s_i en = Some (true, VUsize i) /\ exists m, lookup s_len en = Some (m, VUsize L).
Definition grown (en en' : env T) : Prop :=
  exists ns, map fst en' = ns ++ map fst en /\ ~ In s_i ns /\ ~ In s_len ns.
Lemma grown_refl en : grown en en.
Proof. exists []. simpl. auto. Qed.
Lemma grown_trans a b c : grown a b -> grown b c -> grown a c.
Proof.
  intros (n1 & H1 & I1 & L1) (n2 & H2 & I2 & L2). exists (n2 ++ n1).
  rewrite H2, H1, app_assoc, !in_app_iff. split; [reflexivity|]. tauto.
Qed.
Lemma lookup_skip {A} x (en : list (str * A)) ns base : map fst en = ns ++ base -> ~ In x ns ->
  lookup x (skipn (length ns) en) = lookup x en.
Proof.
  revert en. induction ns as [|n ns IH]; intros en Hm Hn; [reflexivity|].
  destruct en as [|[y v] en]; [discriminate|]. simpl in Hm. injection Hm as -> Hm. simpl.
  destruct (str_eqb_spec n x) as [->|]; [exfalso; apply Hn; left; reflexivity|].
  apply IH; auto. intros H. apply Hn. right. exact H.
Qed.
Lemma skipn_names {A} (en : list (str * A)) ns base : map fst en = ns ++ base ->
  map fst (skipn (length ns) en) = base.
Proof.
  revert en. induction ns as [|n ns IH]; intros en Hm; [exact Hm|].
  destruct en as [|[y v] en]; [discriminate|]. simpl in Hm. injection Hm as -> Hm. simpl. auto.
Qed.
Lemma leave_counts en en' i L : grown en en' -> counts en' i L ->
  counts (skipn (length en' - length en) en') i L /\ grown en (skipn (length en' - length en) en').
Proof.
  intros (ns & Hm & Hi & Hl) (C1 & m & C2).
  assert (Hlen : length en' - length en = length ns).
  { rewrite <- (map_length fst en'), <- (map_length fst en), Hm, app_length. lia. }
  rewrite Hlen. unfold counts. rewrite !(lookup_skip _ _ _ _ Hm) by auto. split; [eauto|].
  exists []. rewrite (skipn_names _ _ _ Hm). simpl. auto.
Qed.
Lemma counts_bind en i L x (v : bool * val T) : other x -> counts en i L -> counts ((x, v) :: en) i L.
Proof.
  intros [H1 H2] [C1 [m C2]]. unfold counts. cbn [lookup].
  destruct (str_eqb_spec x s_i); [congruence|]. destruct (str_eqb_spec x s_len); [congruence|]. eauto.
Qed.
Lemma grown_bind en x (v : bool * val T) : other x -> grown en ((x, v) :: en).
Proof. intros [H1 H2]. exists [x]. simpl. intuition. Qed.
Lemma add_counts n : forall (en : env T) i L en', counts en i L -> add_assign s_i n en = Some en' ->
  counts en' (i + n) L /\ grown en en'.
Proof.
  assert (Hn : forall (en en' : env T), add_assign s_i n en = Some en' -> map fst en' = map fst en).
  { induction en as [|[y [m v]] en IH]; intros en' H; [discriminate|]. cbn [add_assign] in H.
    destruct (str_eqb y s_i).
    - destruct m, v; try discriminate. injection H as <-. reflexivity.
    - destruct (add_assign s_i n en) as [e|]; [|discriminate]. injection H as <-. simpl. f_equal. auto. }
  intros en i L en' Hc H. split; [|exists []; rewrite (Hn _ _ H); simpl; auto].
  assert (Hsl : str_eqb s_i s_len = false) by reflexivity.
  revert en' H. destruct Hc as [C1 [m C2]]. induction en as [|[y [k v]] en IH]; intros en' H; [discriminate|].
  cbn [lookup add_assign] in *. destruct (str_eqb_spec y s_i) as [->|Hy].
  - injection C1 as -> ->. injection H as <-. unfold counts. cbn [lookup]. rewrite str_eqb_refl.
    rewrite Hsl in *. eauto.
  - destruct (add_assign s_i n en) as [e|] eqn:Ea; [|discriminate]. injection H as <-. unfold counts. cbn [lookup].
    apply str_eqb_neq in Hy. rewrite Hy. destruct (str_eqb y s_len).
    + split; [|eauto].
      assert (C : forall (en e : env T) i, lookup s_i en = Some (true, VUsize i) -> add_assign s_i n en = Some e ->
                  lookup s_i e = Some (true, VUsize (i + n))).
      { clear. induction en as [|[y [k v]] en IH]; intros e i H1 H2; [discriminate|]. cbn [lookup add_assign] in *.
        destruct (str_eqb y s_i) eqn:Ey.
        - injection H1 as -> ->. injection H2 as <-. cbn [lookup]. rewrite Ey. reflexivity.
        - destruct (add_assign s_i n en) as [e'|]; [|discriminate]. injection H2 as <-. cbn [lookup]. rewrite Ey. eauto. }
      eapply C; eauto.
    + destruct (IH C1 C2 _ eq_refl) as [D1 D2]. auto.
Qed.

(** The cost is paid by the statements and by the advance of [i]. *)
Definition paid (size n i L : nat) (en : env T) (o : outcome T E) : Prop :=
  match o with
  | ONext en' => exists i', counts en' i' L /\ grown en en' /\ i <= i' /\ n + 2 * (L - i') <= size + 2 * (L - i)
  | _ => n <= size + 2 * (L - i)
  end.
Lemma longest_if c body : longest_stmt (SIf c body) = S (longest body).
Proof. reflexivity. Qed.
Lemma longest_arm sc arms h body : In (h, body) arms -> S (longest body) <= longest_stmt (SMatch sc arms).
Proof.
  intros Hin. cbn [longest_stmt].
  set (go := fix go (l : list (arm_head * list stmt)) : nat :=
         match l with [] => 0 | (_, body) :: l' => Nat.max _ (go l') end).
  assert (H : longest body <= go arms); [|apply le_n_S; exact H].
  induction arms as [|[h' body'] arms IH]; [destruct Hin|]. cbn [go].
  destruct Hin as [[= -> ->]|Hin].
  - apply Nat.le_max_l.
  - etransitivity; [apply IH; exact Hin|]. apply Nat.le_max_r.
Qed.
Lemma paid_leave size n i L en o : paid size n i L en o -> paid size n i L en (leave en o).
Proof.
  destruct o as [en'| | | |]; cbn [paid leave]; auto.
  intros (i' & C & G & Hi & Hp). destruct (leave_counts _ _ _ _ G C). eauto.
Qed.
Lemma paid_more size size' n i L en o : size <= size' -> paid size n i L en o -> paid size' n i L en o.
Proof.
  intros Hs. destruct o; cbn [paid]; try lia. intros (i' & C & G & Hi & Hp). exists i'. repeat split; auto; try apply C; lia.
Qed.
Lemma paid_step size n i L en o : paid size n i L en o -> paid (S size) (S n) i L en o.
Proof.
  destruct o; cbn [paid]; try lia. intros (i' & C & G & Hi & Hp). exists i'. repeat split; auto; try apply C; lia.
Qed.
Lemma takes_paid :
  (forall en s rest n o, takes rt senv en s rest n o -> forall i L, calm s -> counts en i L ->
     paid (longest_stmt s) n i L en o) /\
  (forall en l n o, takes_block rt senv en l n o -> forall i L, Forall calm l -> counts en i L ->
     paid (longest l) n i L en o).
Proof.
  apply takes_both.
  - intros en s rest Hs i L Hc C. inversion Hc; subst; try discriminate; cbn [exec_stmt longest_stmt].
    + cbn [paid]. exists i. auto using grown_refl.
    + destruct (eval_expr rt en e); cbn [paid]; try lia.
      exists i. split; [apply counts_bind; auto|]. split; [apply grown_bind; auto|]. lia.
    + destruct (eval_slice rt en src a b) as [[l|]|]; cbn [paid]; try lia.
      destruct (utf8_valid l); cbn [paid]; try lia.
      exists i. split; [apply counts_bind; auto|]. split; [apply grown_bind; auto|]. lia.
    + destruct (lookup src en) as [[m [k|bs|bs|t v]]|]; cbn [paid]; try lia.
      destruct (infer senv x rest); cbn [paid]; try lia.
      destruct (rt_parse rt _ _); cbn [paid]; try lia.
      exists i. split; [apply counts_bind; auto|]. split; [apply grown_bind; auto|]. lia.
    + destruct (add_assign s_i n en) as [en'|] eqn:Ea; cbn [paid]; try lia.
      destruct (add_counts n en i L en' C Ea) as [C' G]. exists (i + n). repeat split; auto; try apply C'; lia.
    + unfold eval_ret. destruct r; cbn [paid]; try lia. destruct (eval_fields en fields); cbn [paid]; lia.
  - intros. cbn [paid longest_stmt]. lia.
  - intros. cbn [paid longest_stmt]. exists i. repeat split; auto using grown_refl; try apply H0; lia.
  - intros en c body rest n o Hb Ht IH i L Hc C. inversion Hc; subst. rewrite longest_if.
    apply paid_step, paid_leave, IH; auto.
  - intros. cbn [paid longest_stmt]. lia.
  - intros en sc arms rest v [h body] n o He Hf Ht IH i L Hc C. inversion Hc as [| | | | | | |? ? Ha|]; subst.
    apply find_some in Hf. destruct Hf as [Hin _]. apply paid_leave.
    eapply paid_more; [eapply longest_arm; exact Hin|]. apply paid_step, IH; auto. eapply Ha. exact Hin.
  - intros. cbn [paid longest_stmt]. lia.
  - intros. cbn [paid longest_stmt]. exists i. repeat split; auto using grown_refl; try apply H0; lia.
  - intros en c body rest n en' m o Hb Ht IH Hw IHw i L Hc C. inversion Hc; subst.
    assert (Hlt : i < L).
    { cbn [eval_bexpr cmp_expr eval_expr] in Hb. unfold cmp_expr in Hb. cbn [eval_expr] in Hb. unfold get_usize in Hb.
      destruct C as [C1 [k C2]]. rewrite C1, C2 in Hb. destruct (Nat.ltb_spec i L); [assumption|discriminate]. }
    assert (Hbody : exists i', n = 1 /\ i' = i + 1 /\ counts en' i' L /\ grown en en').
    { inversion Ht as [|? ? ? n1 en1 m1 ? H1 H2|]; subst.
      - inversion H2; subst. inversion H1; subst; try discriminate. cbn [exec_stmt] in *.
        destruct (add_assign s_i 1 en) as [e|] eqn:Ea; [|discriminate].
        match goal with X : ONext _ = ONext _ |- _ => injection X as -> end.
        destruct (add_counts 1 en i L en' C Ea). eauto.
      - exfalso. match goal with X : forall en', _ <> _ |- _ => eapply X; reflexivity end. }
    destruct Hbody as (i' & -> & -> & C' & G).
    destruct (leave_counts _ _ _ _ G C') as [C2 G2].
    specialize (IHw (i + 1) L Hc C2). cbn [longest_stmt] in *.
    destruct o as [en2| | | |]; cbn [paid] in *; try lia.
    destruct IHw as (i2 & D & G3 & Hi & Hp). exists i2. split; [exact D|]. split; [eapply grown_trans; eauto|]. lia.
  - intros en c body rest n o Hb Ht IH Hn i L Hc C. inversion Hc; subst.
    inversion Ht as [|? ? ? n1 en1 m1 ? H1 H2|? ? ? ? ? H1 H2]; subst.
    + inversion H2; subst. exfalso. eapply Hn. reflexivity.
    + inversion H1; subst; try discriminate.
      cbn [exec_stmt]. cbn [exec_stmt] in H2, Hn.
      assert (Hlt : i < L).
      { cbn [eval_bexpr] in Hb. unfold cmp_expr in Hb. cbn [eval_expr] in Hb. unfold get_usize in Hb.
        destruct C as [C1 [k C2]]. rewrite C1, C2 in Hb. destruct (Nat.ltb_spec i L); [assumption|discriminate]. }
      destruct (add_assign s_i 1 en) as [en'|]; [exfalso; eapply Hn; reflexivity|]. cbn [paid longest_stmt]. lia.
  - intros en i L _ C. cbn [paid longest]. exists i. repeat split; auto using grown_refl; try apply C; lia.
  - intros en s l n en' m o Hs IHs Hl IHl i L Hc C. inversion Hc; subst. cbn [longest].
    destruct (IHs i L) as (i' & C' & G & Hi & Hp); auto. specialize (IHl i' L). cbn [paid] in *.
    destruct o as [en2| | | |]; cbn [paid] in *; try (specialize (IHl H2 C'); lia).
    destruct (IHl H2 C') as (i2 & D & G2 & Hi2 & Hp2). exists i2. split; [exact D|].
    split; [eapply grown_trans; eauto|]. lia.
  - intros en s l n o Hs IHs Hn i L Hc C. inversion Hc; subst. cbn [longest].
    eapply paid_more; [|apply IHs; auto]. lia.
Qed.
End Cost.

(** ** Generated programs are calm *)
Lemma calm_not_found : calm not_found.
Proof. constructor. Qed.
Lemma calm_methods fr : calm (methods_stmt fr).
Proof.
  constructor. constructor; [|constructor]. constructor. intros h body Hin. apply in_app_iff in Hin.
  destruct Hin as [Hin|[[= <- <-]|[]]].
  - apply in_map_iff in Hin. destruct Hin as (r & [= <- <-] & _). repeat constructor.
  - repeat constructor.
Qed.
Lemma calm_expect n t : calm (expect n t).
Proof.
  constructor. intros h body [[= <- <-]|[[= <- <-]|[]]]; repeat constructor.
Qed.
Lemma other_start : other s_start. Proof. split; discriminate. Qed.
Lemma other_text : other s_text. Proof. split; discriminate. Qed.
Lemma calm_dynamic name rest : other name -> Forall calm rest -> Forall calm (dynamic_block name rest).
Proof.
  intros Hn Hr. unfold dynamic_block. apply Forall_app. split; [|exact Hr].
  repeat constructor; auto using other_text; try apply other_text; apply Hn.
Qed.
Lemma find_dynamic_In l n (c : ctrie) : find_dynamic l = Some (n, c) -> In (CDynamic n, c) l.
Proof.
  induction l as [|[[ch|m|] t] l IH]; simpl; try discriminate; auto. intros [= -> ->]. auto.
Qed.
(** A parameter named [i] does not pass the check, and one named [len] only as
    a [usize]. *)
Lemma dynamic_other senv tyf fuel t n child b :
  trie_good senv tyf t -> In (CDynamic n, child) (t_children t) ->
  gen_dynamic (gen_trie fuel) child n = ROk b -> checks senv b -> other n.
Proof.
  intros Hg Hin Hb (te & d0 & d & Hc).
  destruct (gen_dynamic_sep _ _ _ _ Hb) as [c Hsep].
  apply gen_dynamic_inv in Hb. destruct Hb as (b' & Hb & ->).
  unfold dynamic_block in Hc. cbn [app] in Hc.
  rewrite check_block_cons in Hc. cbn [check_stmt] in Hc.
  rewrite check_block_cons in Hc. rewrite check_stmt_while in Hc.
  destruct (check_bexpr te _); [|discriminate].
  destruct (check_block senv te [SAdd s_i 1] false); [|discriminate].
  rewrite check_block_cons in Hc. cbn [check_stmt] in Hc.
  rewrite check_block_cons in Hc. cbn [check_stmt] in Hc.
  destruct (check_slice te s_path (EVar s_start) (EVar s_i) && _); [|discriminate].
  rewrite check_block_cons in Hc. cbn [check_stmt] in Hc.
  rewrite lookup_cons_eq in Hc.
  destruct (infer senv n (SBlank :: b')) as [ty0|] eqn:Einf; [|discriminate].
  destruct (no_variable senv n); [discriminate|].
  rewrite check_block_cons in Hc. cbn [check_stmt] in Hc.
  destruct (after_dynamic _ _ _ _ _ _ _ _ Hsep Hb Hc) as (Hi & _ & ml & tl & Hl & Hu).
  split; intros ->; rewrite lookup_cons_eq in *; try discriminate.
  injection Hl as <- <-. cbn [is_usize] in Hu. apply str_eqb_eq in Hu. subst ty0.
  apply infer_in in Einf. apply block_uses_cons_in in Einf. destruct Einf as [[]|Einf].
  destruct (gen_trie_uses senv tyf s_len fuel child b' s_usize Hb Einf) as (t' & fr & r & Hs & Hd & Hr & Huse).
  apply (tg_names _ _ _ Hg t s_len child (sub_refl _) Hin); [|simpl; tauto].
  symmetry. eapply (tg_types _ _ _ Hg); [apply sub_refl | exact Hin | exact Hs | exact Hd | exact Hr | exact Huse].
Qed.
Lemma gen_calm senv tyf : forall fuel t b,
  trie_good senv tyf t -> gen_trie fuel t = ROk b -> checks senv b -> Forall calm b.
Proof.
  induction fuel as [|fuel IH]; intros t b Hok H Hck; [discriminate|]. cbn [gen_trie] in H.
  destruct (gen_children (gen_trie fuel) t) as [b'| | |] eqn:Eg; try discriminate. injection H as <-.
  apply Forall_app. split.
  { unfold methods_block. destruct (has_resources (t_data t)); constructor; [apply calm_methods|constructor]. }
  apply checks_app in Hck.
  assert (Hrec : forall s b, subtrie s t -> gen_trie fuel s = ROk b -> checks senv b -> Forall calm b).
  { intros s b Hs. apply IH. eapply trie_good_sub; eauto. }
  assert (Hdyn : forall n c b, In (CDynamic n, c) (t_children t) -> gen_dynamic (gen_trie fuel) c n = ROk b ->
                 checks senv b -> Forall calm b).
  { intros n c b Hin Hg Hcb. pose proof (dynamic_other _ _ _ _ _ _ _ Hok Hin Hg Hcb) as Hn.
    apply gen_dynamic_inv in Hg. destruct Hg as (b'' & Hg & ->).
    apply calm_dynamic; [exact Hn|].
    eapply Hrec; [eapply subtrie_child; eauto|exact Hg|]. eapply checks_dynamic; exact Hcb. }
  assert (Hmany : gen_many (gen_trie fuel) t = ROk b' -> Forall calm b').
  { unfold gen_many. pose proof (unamb_sub (trie_height t) t (le_n _)) as Hsub.
    destruct (unamb t) as [[u l] next] eqn:Eu. cbn [snd] in Hsub.
    assert (Hstart : Forall calm (match find_dynamic (t_children t) with
              | Some _ => [SBlank; SLet s_start (EVar s_i); SBlank] | None => [] end)).
    { destruct (find_dynamic (t_children t)); repeat constructor; apply other_start. }
    destruct u as [|u0 us].
    - destruct (gen_arms (gen_trie fuel) (t_children t)) as [arms| | |] eqn:Ea; try discriminate.
      intros [= <-]. apply Forall_app. split; [exact Hstart|]. constructor; [repeat constructor|].
      constructor; [|constructor]. constructor.
      apply checks_app, checks_cons in Hck. destruct Hck as (te & d0 & d & Hck).
      rewrite check_block_cons, check_stmt_match in Hck.
      destruct (check_scrut te _ && _); [|discriminate].
      destruct (check_arms senv te _) as [d2|] eqn:Ec; [|discriminate]. clear Hck.
      assert (Hall : forall a, In a arms -> exists d', check_arm senv te a = Some d').
      { intros a Ha. eapply check_arms_in; eauto. apply in_app_iff; auto. }
      assert (Harms : forall l0 arms0, incl l0 (t_children t) -> gen_arms (gen_trie fuel) l0 = ROk arms0 ->
                 incl arms0 arms -> forall h body, In (h, body) arms0 -> Forall calm body).
      { clear Ea. induction l0 as [|[k child] l0 IHl]; intros arms0 Hi Ha Hia h body Hin.
        - injection Ha as <-. destruct Hin.
        - assert (Hk : In (k, child) (t_children t)) by (apply Hi; left; reflexivity).
          assert (Hi' : incl l0 (t_children t)) by (intros y Hy; apply Hi; right; exact Hy).
          destruct k as [c|n|]; cbn [gen_arms] in Ha.
          + destruct (gen_trie fuel child) as [bb| | |] eqn:Eb; try discriminate. cbn [rbind] in Ha.
            destruct (gen_arms (gen_trie fuel) l0) as [arms'| | |] eqn:Ea; try discriminate.
            injection Ha as <-. destruct Hin as [[= <- <-]|Hin].
            2: { eapply IHl; eauto. intros y Hy. apply Hia. right. exact Hy. }
            constructor; [constructor|]. eapply Hrec; [eapply subtrie_child; eauto|exact Eb|].
            destruct (Hall _ (Hia _ (or_introl eq_refl))) as [d' Hd]. cbn [check_arm] in Hd.
            destruct (plain_lit [c]); [|discriminate].
            apply (checks_cons _ (SAdd s_i 1)). do 3 eexists. exact Hd.
          + destruct (gen_dynamic (gen_trie fuel) child n) as [bb| | |] eqn:Eb; try discriminate.
            injection Ha as <-. exfalso.
            destruct (Hall _ (Hia _ (or_introl eq_refl))) as [d' Hd]. discriminate.
          + destruct (gen_arms (gen_trie fuel) l0) as [arms'| | |] eqn:Ea; try discriminate.
            injection Ha as <-. exfalso.
            destruct (Hall _ (Hia _ (or_introl eq_refl))) as [d' Hd]. discriminate. }
      intros h body Hin. apply in_app_iff in Hin. destruct Hin as [Hin|[[= <- <-]|[]]].
      + eapply Harms; eauto using incl_refl.
      + repeat constructor.
    - destruct (find_dynamic (t_children t)) as [[name dchild]|] eqn:Ef; try discriminate.
      destruct (gen_trie fuel next) as [bn| | |] eqn:En; try discriminate. cbn [rbind].
      destruct (gen_dynamic (gen_trie fuel) dchild name) as [bd| | |] eqn:Ed; try discriminate.
      intros [= <-]. do 3 apply checks_cons in Hck. pose proof Hck as Hcd. apply checks_cons in Hcd.
      assert (Hcn : checks senv bn).
      { destruct Hck as (te & d0 & dd & Hc). cbn [app] in Hc. rewrite check_block_cons, check_stmt_if in Hc.
        destruct (check_bexpr te _); [|discriminate].
        rewrite check_block_cons, check_stmt_match in Hc.
        destruct (check_scrut te (path_slice _) && _); [|discriminate].
        cbn [check_arms check_arm] in Hc. destruct (plain_lit (u0 :: us)); [|discriminate].
        destruct (check_block senv te (SAdd s_i _ :: bn) false) as [d1|] eqn:Ec1; [|discriminate].
        eapply checks_cons. do 3 eexists; exact Ec1. }
      do 3 (constructor; [first [constructor; fail|constructor; apply other_start|constructor]|]). constructor.
      + constructor. constructor; [|constructor]. constructor.
        intros h body [[= <- <-]|[[= <- <-]|[]]]; [|constructor]. constructor; [constructor|]. eapply Hrec; eauto.
      + eapply Hdyn; eauto. apply find_dynamic_In. exact Ef. }
  unfold gen_children in Eg. destruct (t_children t) as [|[k child] rest] eqn:Ech.
  { injection Eg as <-. repeat constructor. }
  assert (Hsub : subtrie child t) by (eapply subtrie_child; rewrite Ech; left; reflexivity).
  destruct rest as [|k2 rest].
  2: { destruct k; apply Hmany; exact Eg. }
  destruct k as [c|n|].
  - pose proof (chase_sub (trie_height child) child (le_n _)) as Hcs. destruct (chase child) as [more child'].
    cbn [snd] in Hcs. destruct (gen_trie fuel child') as [bb| | |] eqn:Eb; try discriminate. injection Eg as <-.
    constructor; [repeat constructor|]. constructor; [apply calm_expect|].
    do 2 apply checks_cons in Hck. eapply Hrec; [eapply subtrie_trans; eauto|exact Eb|exact Hck].
  - destruct (gen_dynamic (gen_trie fuel) child n) as [bb| | |] eqn:Eb; try discriminate. injection Eg as <-.
    apply checks_cons in Hck.
    constructor; [constructor; apply other_start|]. eapply Hdyn; [left; reflexivity|exact Eb|exact Hck].
  - destruct (gen_trie fuel child) as [bb| | |] eqn:Eb; try discriminate. injection Eg as <-.
    do 2 apply checks_cons in Hck.
    constructor; [|constructor; [apply calm_expect|eapply Hrec; eauto]].
    destruct (has_resources (t_data child)); [apply calm_methods|repeat constructor].
Qed.

Lemma match_route_cost {T E} (rt : runtime T E) c path method : runnable c ->
  exists root body r n,
    flattened_modules (c_routes c) = ROk root /\ gen_program c = ROk body /\
    match_route rt c path method = Some r /\
    takes_block rt (module_structs [] root) (prologue_env path method) body n (outcome_of r) /\
    n <= longest body + 2 * length path.
Proof.
  intros Hc. destruct (answers rt c path method Hc) as [r Hr]. pose proof Hr as Hr'.
  destruct Hc as (Hc & Hh & Hred). pose proof Hc as Hc'.
  unfold match_route in Hr'. unfold compiles in Hc'.
  destruct (flattened_modules (c_routes c)) as [root| | |] eqn:Em; try discriminate.
  destruct (gen_program c) as [body| | |] eqn:Eg; try discriminate. rewrite Hc in Hr'.
  rewrite !andb_true_iff in Hc'. destruct Hc' as [[Hok _] Hck].
  unfold run_program in Hr'. set (senv := module_structs [] root) in *.
  assert (Ho : exec_block rt senv (S (length path)) (prologue_env path method) body = outcome_of r).
  { destruct (exec_block rt senv (S (length path)) (prologue_env path method) body); try discriminate;
      injection Hr' as <-; reflexivity. }
  destruct (exec_takes rt senv (S (length path)) (prologue_env path method) body) as [n Hn].
  { rewrite Ho. unfold settled, outcome_of. destruct r; split; discriminate. }
  rewrite Ho in Hn. exists root, body, r, n. split; [reflexivity|]. split; [reflexivity|].
  split; [exact Hr|]. split; [exact Hn|].
  unfold gen_program in Eg. destruct (to_trie (flattened_routes (c_routes c))) as [t| | |] eqn:Et; try discriminate.
  cbn [rbind] in Eg.
  pose proof (trie_good_config c root t Em Hok Et Hh Hred) as Hg.
  assert (Hchk : checks senv body).
  { destruct (check_block senv prologue_tenv body false) as [d|] eqn:Ec; [|discriminate]. do 3 eexists. exact Ec. }
  pose proof (gen_calm _ _ _ _ _ Hg Eg Hchk) as Hcalm.
  set (i := match path with b :: _ => if N.eqb b c_slash then 1 else 0 | [] => 0 end).
  assert (C : counts (prologue_env (T := T) path method) i (length path)).
  { split; [reflexivity|]. exists false. reflexivity. }
  pose proof (proj2 (takes_paid rt senv) _ _ _ _ Hn i (length path) Hcalm C) as Hp.
  destruct r; cbn [outcome_of paid] in Hp; lia.
Qed.
