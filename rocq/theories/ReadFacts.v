(** * ReadFacts: reading printed statements *)
From Coq Require DecimalNat.
From Verif Require Import Base BaseFacts Core MiniRust Gen Items Fixed RLex RRead SpecRead LexFacts.
From Verif Require Import ExecFacts CostFacts.

(** ** The reader *)

Lemma str_eqb_refl x : str_eqb x x = true.
Proof. apply str_eqb_eq. reflexivity. Qed.
Lemma tok_eqb_refl t : tok_eqb t t = true.
Proof. destruct t; apply str_eqb_refl. Qed.
Lemma eat_same t ts : eat t (t :: ts) = Some (tt, ts).
Proof. unfold eat. rewrite tok_eqb_refl. reflexivity. Qed.
Lemma name_word x ts : is_ident x = true -> name (Word x :: ts) = Some (x, ts).
Proof. unfold name. intros ->. reflexivity. Qed.
Lemma decimal_uint d : decimal (uint_str d) = Some d.
Proof. induction d; cbn [uint_str decimal]; try rewrite IHd; reflexivity. Qed.
Lemma number_num n ts : number (Num (nat_str n) :: ts) = Some (n, ts).
Proof. unfold number, nat_str. rewrite decimal_uint, DecimalNat.Unsigned.of_to. reflexivity. Qed.

(** [P]: what may follow a part. *)
Definition part_reads {A B} (P : list tok -> Prop) (p : reader A) (tk : B -> list tok) (f : B -> list A) (b : B) : Prop :=
  (f b = [] /\ tk b = []) \/
  exists a, f b = [a] /\ tk b <> [] /\ (forall r, P (tk b ++ r)) /\ forall r, P r -> p (tk b ++ r) = Some (a, r).
Lemma follows {A B} (P : list tok -> Prop) (p : reader A) (tk : B -> list tok) f rest l : P rest ->
  (forall b, In b l -> part_reads P p tk f b) -> P (flat_map tk l ++ rest).
Proof.
  intros Hr. induction l as [|b l IH]; intros Hl; [exact Hr|]. cbn [flat_map]. rewrite <- app_assoc.
  destruct (Hl b (or_introl eq_refl)) as [[_ H2]|(a & _ & _ & H3 & _)]; [|apply H3].
  rewrite H2. apply IH. intros; apply Hl; right; assumption.
Qed.
Lemma many_reads {A B} (P : list tok -> Prop) (p : reader A) (tk : B -> list tok) (f : B -> list A) rest : p rest = None -> P rest ->
  forall l fuel,
  (forall b, In b l -> part_reads P p tk f b) ->
  length (flat_map tk l) < fuel ->
  many fuel p (flat_map tk l ++ rest) = Some (flat_map f l, rest).
Proof.
  intros Hr HP. induction l as [|b l IH]; intros fuel Hl Hf.
  - destruct fuel; [inversion Hf|]. cbn [many flat_map app]. rewrite Hr. reflexivity.
  - cbn [flat_map] in *. rewrite app_length in Hf. rewrite <- app_assoc.
    assert (Hl' : forall b, In b l -> part_reads P p tk f b) by (intros; apply Hl; right; assumption).
    destruct (Hl b (or_introl eq_refl)) as [[H1 H2]|(a & H1 & H2 & H3 & H4)].
    + rewrite H1, H2 in *. cbn [app length] in *. apply IH; assumption.
    + destruct fuel; [inversion Hf|]. cbn [many]. rewrite H4 by (eapply follows; eassumption). unfold then_.
      rewrite IH.
      * rewrite H1. reflexivity.
      * exact Hl'.
      * destruct (tk b); [congruence|]. cbn [length] in Hf. lia.
Qed.
Lemma many__reads {A B} (P : list tok -> Prop) (p : reader A) (tk : B -> list tok) (f : B -> list A) rest l : p rest = None -> P rest ->
  (forall b, In b l -> part_reads P p tk f b) ->
  many_ p (flat_map tk l ++ rest) = Some (flat_map f l, rest).
Proof. intros Hr HP Hl. unfold many_. apply (many_reads P); auto. rewrite app_length. lia. Qed.
(** Every part gives one thing. *)
Lemma flat_map_single {A B} (f : B -> A) l : flat_map (fun b => [f b]) l = map f l.
Proof. induction l; [reflexivity|]. cbn [flat_map map app]. rewrite IHl. reflexivity. Qed.
Lemma many__map {A B} (p : reader A) (tk : B -> list tok) (f : B -> A) rest l : p rest = None ->
  (forall b, In b l -> tk b <> [] /\ forall r, p (tk b ++ r) = Some (f b, r)) ->
  many_ p (flat_map tk l ++ rest) = Some (map f l, rest).
Proof.
  intros Hr Hl. rewrite <- flat_map_single. apply (many__reads (fun _ => True) p tk (fun b => [f b])); [exact Hr|exact I|].
  intros b Hb. right. exists (f b). destruct (Hl b Hb). auto.
Qed.
Lemma list_to_reads {A B} close (p : reader A) (tk : B -> list tok) (f : B -> A) l rest :
  str_eqb (lit ",") (lit close) = false -> p (Op (lit close) :: rest) = None ->
  (forall b, In b l -> forall r, p (tk b ++ Op (lit ",") :: r) = Some (f b, Op (lit ",") :: r)) ->
  list_to close p (flat_map (fun b => tk b ++ [Op (lit ",")]) l ++ Op (lit close) :: rest) = Some (map f l, rest).
Proof.
  intros Hc Hr Hl. unfold list_to, then_ at 1.
  rewrite (many__map _ (fun b => tk b ++ [Op (lit ",")]) f).
  - unfold then_, op. rewrite eat_same. reflexivity.
  - unfold then_. rewrite Hr. reflexivity.
  - intros b Hb. split; [destruct (tk b); discriminate|]. intros r. rewrite <- app_assoc. unfold then_.
    cbn [app]. rewrite Hl by exact Hb. unfold comma_or, or_, op. rewrite eat_same. reflexivity.
Qed.

(** Evaluate a reader on known tokens. *)
Ltac known :=
  repeat first
    [ rewrite eat_same
    | rewrite name_word by (assumption || reflexivity)
    | rewrite number_num ];
  cbv beta iota zeta.

(** ** Expressions *)

Definition good_expr (e : expr) : Prop := match e with EVar x | EPlus x _ => is_ident x = true | ENat _ => True end.
Definition etoks (e : expr) : list tok :=
  match e with
  | EVar x => [Word x]
  | ENat n => [Num (nat_str n)]
  | EPlus x n => [Word x; Op (lit "+"); Num (nat_str n)]
  end.
Lemma lex_expr e s : good_expr e -> edge s = true -> num_edge s = true -> lex (pr_expr e ++ s) = pre (etoks e) (lex s).
Proof.
  intros He H1 H2. destruct e as [x|n|x n]; cbn [pr_expr etoks good_expr] in *.
  - apply lex_word; [apply ident_wordy; exact He|exact H1].
  - apply lex_num; exact H2.
  - rewrite <- !app_assoc. rewrite lex_word; [|apply ident_wordy; exact He|reflexivity].
    change (lex (lit " + " ++ nat_str n ++ s)) with (pre [Op (lit "+")] (lex (nat_str n ++ s))).
    rewrite lex_num by exact H2. reflexivity.
Qed.
Lemma lex_expr_tight e s : good_expr e -> edge s = true -> num_edge s = true -> lex (pr_expr_tight e ++ s) = pre (etoks e) (lex s).
Proof.
  intros He H1 H2. destruct e as [x|n|x n]; cbn [pr_expr_tight etoks good_expr] in *.
  - apply lex_word; [apply ident_wordy; exact He|exact H1].
  - apply lex_num; exact H2.
  - rewrite <- !app_assoc. rewrite lex_word; [|apply ident_wordy; exact He|reflexivity].
    rewrite lex_plus by apply begins_num. rewrite lex_num by exact H2. reflexivity.
Qed.
Lemma begins_expr e s : good_expr e -> begins ident_char (pr_expr_tight e ++ s) = true.
Proof.
  destruct e as [x|n|x n]; cbn [pr_expr_tight good_expr]; rewrite <- ?app_assoc; intros H;
    solve [apply begins_word; apply ident_wordy; exact H|apply begins_num].
Qed.
Definition not_op (o : string) (ts : list tok) : Prop := op o ts = None.
Lemma read_expr e ts : good_expr e -> not_op "+" ts -> r_expr (etoks e ++ ts) = Some (e, ts).
Proof.
  intros He Ht. unfold r_expr, or_, then_, op, done. destruct e as [x|n|x n]; cbn [etoks good_expr app] in *; known; try reflexivity.
  unfold not_op, op in Ht. rewrite Ht. cbn [number]. reflexivity.
Qed.

Definition sltoks (x : str) (a b : expr) : list tok :=
  [Op (lit "&"); Word x; Op (lit "[")] ++ etoks a ++ [Op (lit "..")] ++ etoks b ++ [Op (lit "]")].
Lemma lex_slice x a b s : is_ident x = true -> good_expr a -> good_expr b ->
  lex (pr_slice x a b ++ s) = pre (sltoks x a b) (lex s).
Proof.
  intros Hx Ha Hb. unfold pr_slice, sltoks. rewrite <- !app_assoc.
  rewrite lex_amp by (apply begins_word; apply ident_wordy; exact Hx).
  rewrite lex_word; [|apply ident_wordy; exact Hx|reflexivity].
  change (lex (lit "[" ++ pr_expr_tight a ++ lit ".." ++ pr_expr_tight b ++ lit "]" ++ s))
    with (pre [Op (lit "[")] (lex (pr_expr_tight a ++ lit ".." ++ pr_expr_tight b ++ lit "]" ++ s))).
  rewrite lex_expr_tight; [|exact Ha|reflexivity|reflexivity].
  rewrite lex_dots by (apply begins_expr; exact Hb).
  rewrite lex_expr_tight; [|exact Hb|reflexivity|reflexivity].
  change (lex (lit "]" ++ s)) with (pre [Op (lit "]")] (lex s)).
  rewrite !pre_app. reflexivity.
Qed.
Lemma read_slice x a b ts : is_ident x = true -> good_expr a -> good_expr b ->
  r_slice (sltoks x a b ++ ts) = Some ((x, a, b), ts).
Proof.
  intros Hx Ha Hb. unfold r_slice, sltoks, then_, op, done. cbn [app]. known.
  rewrite <- !app_assoc. rewrite read_expr by (exact Ha || reflexivity). cbn [app]. known.
  rewrite <- app_assoc. rewrite read_expr by (exact Hb || reflexivity). cbn [app]. known. reflexivity.
Qed.

Definition good_atom (c : bexpr) : Prop :=
  match c with
  | BEq a b | BGt a b | BLe a b | BLt a b => good_expr a /\ good_expr b
  | BSliceNe x a b t => is_ident x = true /\ good_expr a /\ good_expr b /\ plain_lit t = true
  | BAnd _ _ => False
  end.
Fixpoint good_bexpr (c : bexpr) : Prop :=
  match c with
  | BAnd c d => good_bexpr c /\ good_atom d
  | c => good_atom c
  end.
Fixpoint btoks (c : bexpr) : list tok :=
  match c with
  | BEq a b => etoks a ++ [Op (lit "==")] ++ etoks b
  | BGt a b => etoks a ++ [Op (lit ">")] ++ etoks b
  | BLe a b => etoks a ++ [Op (lit "<=")] ++ etoks b
  | BLt a b => etoks a ++ [Op (lit "<")] ++ etoks b
  | BAnd c d => btoks c ++ [Op (lit "&&")] ++ btoks d
  | BSliceNe x a b t => sltoks x a b ++ [Op (lit "!="); Bytes t]
  end.
Ltac lexlit :=
  repeat match goal with
  | |- context [lex (lit ?l ++ ?s)] =>
      let ts := eval vm_compute in (match lex (lit l) with Some ts => ts | None => [] end) in
      change (lex (lit l ++ s)) with (pre ts (lex s))
  end.
(** Compare tokens. *)
Ltac finish :=
  rewrite <- ?pre_app; repeat (progress (rewrite <- ?app_assoc; cbn [app])); reflexivity.
Lemma lex_atom c s : good_atom c -> edge s = true -> num_edge s = true -> lex (pr_bexpr c ++ s) = pre (btoks c) (lex s).
Proof.
  intros Hc H1 H2. assert (H3 : begins ident_char s = false).
  { unfold edge in H1. destruct s as [|c0 s]; [reflexivity|]. cbn [begins] in *.
    rewrite negb_true_iff, orb_false_iff in H1. apply H1. }
  destruct c as [a b|a b|a b|a b|c d|x a b t]; cbn [pr_bexpr good_atom btoks] in *;
    try (destruct Hc as [Ha Hb]; rewrite <- !app_assoc; rewrite lex_expr by (exact Ha || reflexivity); lexlit;
         rewrite lex_expr by (exact Hb || assumption); rewrite !pre_app; reflexivity).
  - destruct Hc.
  - destruct Hc as (Hx & Ha & Hb & Ht). rewrite <- !app_assoc. rewrite lex_slice by assumption. lexlit.
    rewrite lex_bytes by assumption. rewrite !pre_app. reflexivity.
Qed.
Lemma lex_bexpr c : forall s, good_bexpr c -> edge s = true -> num_edge s = true -> lex (pr_bexpr c ++ s) = pre (btoks c) (lex s).
Proof.
  induction c as [a b|a b|a b|a b|c IHc d IHd|x a b t]; intros s Hc H1 H2; try (apply lex_atom; assumption).
  destruct Hc as [Hc Hd]. cbn [pr_bexpr btoks]. rewrite <- !app_assoc. rewrite IHc by (exact Hc || reflexivity).
  lexlit. rewrite lex_atom by assumption. rewrite !pre_app. reflexivity.
Qed.
(** The end of a condition. *)
Definition ends_cond (ts : list tok) : Prop := not_op "+" ts /\ not_op "&&" ts.
Lemma read_atom c ts : good_atom c -> not_op "+" ts -> r_comparison (btoks c ++ ts) = Some (PcCmp c, ts).
Proof.
  intros Hc Ht.
  assert (Hno : forall e r, good_expr e -> r_slice (etoks e ++ r) = None) by (intros [x|n|x n] r He; reflexivity).
  unfold r_comparison, or_ at 1, then_ at 1.
  destruct c as [a b|a b|a b|a b|c d|x a b t]; cbn [good_atom btoks] in *;
    try (destruct Hc as [Ha Hb]; rewrite <- !app_assoc; rewrite Hno by exact Ha; unfold then_ at 1;
         rewrite read_expr by (exact Ha || reflexivity); cbn [app]; unfold or_, then_, op, done; known;
         repeat match goal with |- context [eat (Op (lit ?a)) (Op (lit ?b) :: ?r)] =>
           change (eat (Op (lit a)) (Op (lit b) :: r)) with (@None (unit * list tok)) end; cbv beta iota; known;
         rewrite read_expr by (exact Hb || exact Ht); reflexivity).
  - destruct Hc.
  - destruct Hc as (Hx & Ha & Hb & Hp). rewrite <- app_assoc. rewrite read_slice by assumption. cbn [app].
    unfold or_, then_, op, done. known. reflexivity.
Qed.
Lemma bexpr_atoms c : good_bexpr c -> exists a l, good_atom a /\ Forall good_atom l /\
  btoks c = btoks a ++ flat_map (fun d => Op (lit "&&") :: btoks d) l /\
  as_bexpr (fold_left PcAnd (map PcCmp l) (PcCmp a)) = Some c.
Proof.
  induction c as [a b|a b|a b|a b|c IHc d IHd|x a b t]; intros Hc;
    try (eexists _, []; split; [exact Hc|split; [constructor|split; [symmetry; apply app_nil_r|reflexivity]]]).
  destruct Hc as [Hc Hd]. destruct (IHc Hc) as (a & l & Ha & Hl & E1 & E2). exists a, (l ++ [d]).
  split; [exact Ha|]. split; [apply Forall_app; auto|]. split.
  - cbn [btoks]. rewrite E1, flat_map_app, <- !app_assoc. cbn [flat_map app]. rewrite app_nil_r. reflexivity.
  - rewrite map_app, fold_left_app. cbn [map fold_left as_bexpr]. rewrite E2. reflexivity.
Qed.
Lemma read_conj (l : list bexpr) ts : Forall good_atom l -> ends_cond ts ->
  many_ (op "&&" ;- r_comparison) (flat_map (fun d => Op (lit "&&") :: btoks d) l ++ ts) = Some (map PcCmp l, ts).
Proof.
  intros Hl [H1 H2]. rewrite <- flat_map_single.
  apply (many__reads (not_op "+") _ (fun d => Op (lit "&&") :: btoks d) (fun d => [PcCmp d])).
  - unfold then_. rewrite H2. reflexivity.
  - exact H1.
  - intros d Hd. right. exists (PcCmp d). rewrite Forall_forall in Hl. repeat split; [discriminate|].
    intros r Hr. unfold then_, op. cbn [app]. known. apply read_atom; auto.
Qed.
Lemma read_bexpr c ts : good_bexpr c -> ends_cond ts -> r_bexpr (btoks c ++ ts) = Some (c, ts).
Proof.
  intros Hc Ht. destruct (bexpr_atoms c Hc) as (a & l & Ha & Hl & E1 & E2).
  unfold r_bexpr, r_pcond, then_ at 1. rewrite E1, <- app_assoc.
  rewrite read_atom; [|exact Ha|destruct l; [apply Ht|reflexivity]].
  unfold then_. rewrite read_conj by assumption. unfold done. rewrite E2. reflexivity.
Qed.

Definition good_scrut (s : scrut) : Prop :=
  match s with ScVar x => is_ident x = true | ScSlice x a b => is_ident x = true /\ good_expr a /\ good_expr b end.
Definition sctoks (s : scrut) : list tok := match s with ScVar x => [Word x] | ScSlice x a b => sltoks x a b end.
Lemma lex_scrut sc s : good_scrut sc -> edge s = true -> lex (pr_scrut sc ++ s) = pre (sctoks sc) (lex s).
Proof.
  destruct sc as [x|x a b]; cbn [good_scrut pr_scrut sctoks].
  - intros Hx Hs. apply lex_word; [apply ident_wordy; exact Hx|exact Hs].
  - intros (Hx & Ha & Hb) _. apply lex_slice; assumption.
Qed.
Lemma read_scrut sc ts : good_scrut sc -> r_scrut (sctoks sc ++ ts) = Some (sc, ts).
Proof.
  destruct sc as [x|x a b]; cbn [good_scrut sctoks]; unfold r_scrut, or_, then_ at 1.
  - intros Hx. change (r_slice ([Word x] ++ ts)) with (@None (str * expr * expr * list tok)). cbv beta iota.
    unfold then_. cbn [app]. known. reflexivity.
  - intros (Hx & Ha & Hb). rewrite read_slice by assumption. reflexivity.
Qed.

(** ** Values *)

Definition ptoks (p : list str) : list tok :=
  match p with [] => [] | x :: p' => Word x :: flat_map (fun y => [Op (lit "::"); Word y]) p' end.
Definition good_path (p : list str) : Prop := p <> [] /\ Forall (fun x => is_ident x = true) p.
Lemma read_path p ts : good_path p -> not_op "::" ts -> r_path (ptoks p ++ ts) = Some (p, ts).
Proof.
  intros [Hn Hp] Ht. destruct p as [|x p]; [congruence|]. inversion Hp as [|? ? Hx Hp']; subst.
  unfold r_path, then_ at 1. cbn [ptoks app]. known. unfold then_.
  rewrite (many__map _ (fun y => [Op (lit "::"); Word y]) (fun y => y)).
  - rewrite map_id. reflexivity.
  - rewrite Ht. reflexivity.
  - intros y Hy. rewrite Forall_forall in Hp'. specialize (Hp' y Hy). split; [discriminate|]. intros r. unfold op.
    cbn [app]. known. reflexivity.
Qed.
Definition ftoks (f : str * field_init) : list tok :=
  Word (fst f) :: match snd f with FVar => [] | FNone => [Op (lit ":"); Word (lit "None")] end.
Fixpoint vtoks (v : value) : list tok :=
  match v with
  | VPath p => ptoks p
  | VCall p w => ptoks p ++ [Op (lit "(")] ++ vtoks w ++ [Op (lit ")")]
  | VStruct p l => ptoks p ++ [Op (lit "{")] ++ flat_map (fun f => ftoks f ++ [Op (lit ",")]) l ++ [Op (lit "}")]
  end.
Fixpoint good_value (v : value) : Prop :=
  match v with
  | VPath p => good_path p
  | VCall p w => good_path p /\ good_value w
  | VStruct p l => good_path p /\ Forall (fun f => is_ident (fst f) = true) l
  end.
Fixpoint value_depth (v : value) : nat := match v with VCall _ w => S (value_depth w) | _ => 1 end.
(** The end of a value. *)
Definition ends_value (ts : list tok) : Prop := not_op "::" ts /\ not_op "(" ts /\ not_op "{" ts.
Lemma read_value v : forall fuel ts, good_value v -> value_depth v <= fuel -> ends_value ts ->
  r_value fuel (vtoks v ++ ts) = Some (v, ts).
Proof.
  induction v as [p|p w IH|p l]; intros fuel ts Hv Hf (E1 & E2 & E3);
    (destruct fuel; [inversion Hf|]); cbn [value_depth vtoks good_value r_value] in *; unfold then_ at 1.
  - rewrite read_path by assumption. unfold or_, then_. unfold not_op in E2, E3. rewrite E2, E3. reflexivity.
  - destruct Hv as [Hp Hw]. rewrite <- !app_assoc. rewrite read_path by (assumption || reflexivity).
    unfold or_ at 1, then_ at 1, op at 1. cbn [app]. known. unfold then_ at 1.
    rewrite IH; [|assumption|lia|repeat split]. cbn [app]. unfold then_, comma_or, or_, op.
    change (eat (Op (lit ",")) (Op (lit ")") :: ts)) with (@None (unit * list tok)). cbv beta iota. known. reflexivity.
  - destruct Hv as [Hp Hl]. rewrite <- !app_assoc. rewrite read_path by (assumption || reflexivity).
    unfold or_ at 1, then_ at 1, op at 1.
    change (eat (Op (lit "(")) ([Op (lit "{")] ++ flat_map (fun f => ftoks f ++ [Op (lit ",")]) l ++ [Op (lit "}")] ++ ts))
      with (@None (unit * list tok)). cbv beta iota. unfold or_, then_ at 1, op at 1. cbn [app]. known. unfold then_.
    rewrite (list_to_reads "}" r_field ftoks (fun f => f)).
    + rewrite map_id. reflexivity.
    + reflexivity.
    + reflexivity.
    + intros [x [|]] Hx r; rewrite Forall_forall in Hl; specialize (Hl _ Hx); cbn [fst] in Hl;
        unfold r_field, then_, ftoks; cbn [fst snd app]; known; reflexivity.
Qed.

(** The value that a [return] gives. *)
Fixpoint route_val (path : list str) (mods : list (str * str)) (n : str) (fs : list (str * field_init)) : value :=
  match mods with
  | [] => VCall (path ++ [lit "Route"; n]) (VStruct (path ++ [n]) fs)
  | (snake, caps) :: mods' => VCall (path ++ [lit "Route"; caps]) (route_val (path ++ [snake]) mods' n fs)
  end.
Definition ret_val (r : ret) : value :=
  VCall [lit "Ok"]
    match r with
    | RetNotFound => VPath [lit "Match"; lit "NotFound"]
    | RetNotAllowed => VPath [lit "Match"; lit "NotAllowed"]
    | RetRoute redirect mods n fs =>
        VCall [lit "Match"; if redirect then lit "Redirect" else lit "Route"] (route_val [] mods n fs)
    end.
Lemma strs_eqb_eq a b : strs_eqb a b = true <-> a = b.
Proof.
  revert b. induction a as [|x a IH]; intros [|y b]; cbn [strs_eqb]; try (split; [discriminate|congruence]); [tauto|].
  rewrite andb_true_iff, str_eqb_eq, IH. split; [intros [-> ->]|intros [= -> ->]]; auto.
Qed.
Lemma strs_eqb_refl a : strs_eqb a a = true.
Proof. apply strs_eqb_eq. reflexivity. Qed.
Lemma as_route_val mods : forall path n fs, as_route path (route_val path mods n fs) = Some (mods, n, fs).
Proof.
  assert (Hsplit : forall (p : list str) x y, p ++ [x; y] = (p ++ [x]) ++ [y]) by (intros; rewrite <- app_assoc; reflexivity).
  induction mods as [|[snake caps] mods IH]; intros path n fs; cbn [route_val as_route].
  - rewrite Hsplit, removelast_last, strs_eqb_refl, last_last, strs_eqb_refl. reflexivity.
  - rewrite Hsplit, removelast_last, strs_eqb_refl, last_last.
    specialize (IH (path ++ [snake]) n fs).
    destruct mods as [|[s2 c2] mods]; cbn [route_val] in *;
      (replace (nth (length path) ((path ++ [snake]) ++ _) []) with snake
        by (rewrite app_nth1 by (rewrite app_length; cbn; lia); rewrite nth_middle; reflexivity));
      rewrite IH; reflexivity.
Qed.
Lemma as_ret_val r : as_ret (ret_val r) = Some r.
Proof.
  destruct r as [| |redirect mods n fs]; try reflexivity.
  unfold ret_val, as_ret. rewrite as_route_val. destruct redirect; reflexivity.
Qed.
Definition good_ret (r : ret) : Prop :=
  match r with
  | RetRoute _ mods n fs =>
      Forall (fun m => is_ident (fst m) = true /\ is_ident (snd m) = true) mods /\ is_ident n = true /\
      Forall (fun f => is_ident (fst f) = true) fs
  | _ => True
  end.
Lemma good_path_app p q : Forall (fun x => is_ident x = true) p -> good_path q -> good_path (p ++ q).
Proof.
  intros Hp [Hq Hf]. split; [|apply Forall_app; auto]. intros E. apply app_eq_nil in E. destruct E; congruence.
Qed.
Lemma good_route_val mods : forall path n fs, Forall (fun x => is_ident x = true) path ->
  Forall (fun m => is_ident (fst m) = true /\ is_ident (snd m) = true) mods -> is_ident n = true ->
  Forall (fun f : str * field_init => is_ident (fst f) = true) fs -> good_value (route_val path mods n fs).
Proof.
  induction mods as [|[snake caps] mods IH]; intros path n fs Hp Hm Hn Hf; cbn [route_val good_value].
  - repeat split; try (apply good_path_app; auto; split; [discriminate|]; repeat constructor; auto); auto.
  - inversion Hm as [|? ? [H1 H2] Hm']; subst. split.
    + apply good_path_app; auto. split; [discriminate|]. repeat constructor. exact H2.
    + apply IH; auto. apply Forall_app. split; auto.
Qed.
Lemma good_ret_val r : good_ret r -> good_value (ret_val r).
Proof.
  assert (Hg : forall p, forallb is_ident p = true -> p <> [] -> good_path p).
  { intros p H Hn. split; auto. rewrite forallb_forall in H. apply Forall_forall. exact H. }
  destruct r as [| |redirect mods n fs]; cbn [good_ret ret_val good_value]; intros H; split;
    try (apply Hg; [vm_compute; reflexivity|discriminate]).
  destruct H as (H1 & H2 & H3). split; [|apply good_route_val; auto].
  destruct redirect; apply Hg; (vm_compute; reflexivity) || discriminate.
Qed.
Lemma vtoks_depth v : good_value v -> value_depth v <= length (vtoks v).
Proof.
  assert (Hp : forall p, good_path p -> 1 <= length (ptoks p)) by (intros [|x p] [H _]; [congruence|cbn; lia]).
  induction v as [p|p w IH|p l]; cbn [good_value value_depth vtoks]; rewrite ?app_length; cbn [length].
  - auto.
  - intros [H1 H2]. specialize (Hp p H1). specialize (IH H2). lia.
  - intros [H1 H2]. specialize (Hp p H1). lia.
Qed.
Lemma read_return r ts : good_ret r -> ends_value ts -> r_return (Word (lit "return") :: vtoks (ret_val r) ++ ts) = Some (r, ts).
Proof.
  intros Hr Ht. unfold r_return, then_, key. known. rewrite read_value; [|apply good_ret_val; exact Hr| |exact Ht].
  - rewrite as_ret_val. reflexivity.
  - rewrite app_length. pose proof (vtoks_depth _ (good_ret_val _ Hr)). lia.
Qed.

(** Its text. *)
Definition path_str (l : list str) : str := flat_map (fun m => m ++ lit "::") l.
Definition idents (l : list str) : Prop := Forall (fun x => is_ident x = true) l.
Lemma ptoks_snoc l n : l <> [] -> ptoks (l ++ [n]) = ptoks l ++ [Op (lit "::"); Word n].
Proof.
  destruct l as [|x l]; [congruence|]. intros _. cbn [app ptoks]. rewrite flat_map_app. reflexivity.
Qed.
Lemma path_str_app a b : path_str (a ++ b) = path_str a ++ path_str b.
Proof. apply flat_map_app. Qed.
Lemma path_str_cons x l : path_str (x :: l) = x ++ lit "::" ++ path_str l.
Proof. unfold path_str. cbn [flat_map]. rewrite <- app_assoc. reflexivity. Qed.
Lemma lex_path l : forall p s, idents l -> is_ident p = true -> edge s = true ->
  lex (path_str l ++ p ++ s) = pre (ptoks (l ++ [p])) (lex s).
Proof.
  unfold ptoks. induction l as [|x l IH]; intros p s Hl Hp Hs.
  - change (lex (p ++ s) = pre [Word p] (lex s)). apply lex_word; [apply ident_wordy; exact Hp|exact Hs].
  - inversion Hl as [|? ? Hx Hl']; subst. rewrite path_str_cons. rewrite <- !app_assoc.
    rewrite lex_word by (exact (ident_wordy _ Hx) || reflexivity).
    change (lex (lit "::" ++ path_str l ++ p ++ s)) with (pre [Op (lit "::")] (lex (path_str l ++ p ++ s))).
    rewrite IH by assumption. destruct l as [|y l]; reflexivity.
Qed.
Fixpoint nest_str (l : list str) (mods : list (str * str)) : str :=
  match mods with
  | [] => []
  | (snake, caps) :: mods' => path_str l ++ lit "Route::" ++ caps ++ lit "(" ++ nest_str (l ++ [snake]) mods'
  end.
Lemma pr_nest_eq mods : forall l, pr_nest (path_str l) mods = (path_str (l ++ map fst mods), nest_str l mods).
Proof.
  induction mods as [|[snake caps] mods IH]; intros l; cbn [pr_nest map fst nest_str]; [rewrite app_nil_r; reflexivity|].
  replace (path_str l ++ snake ++ lit "::") with (path_str (l ++ [snake]))
    by (rewrite path_str_app, path_str_cons; unfold path_str at 2; cbn [flat_map]; rewrite app_nil_r; reflexivity).
  rewrite IH, <- app_assoc. reflexivity.
Qed.
Definition fields_str (d : nat) (fs : list (str * field_init)) : str :=
  concat (map (fun f => spaces4 d ++ lit "    " ++ pr_field f ++ nl) fs).
Definition route_str (d : nat) (l : list str) (mods : list (str * str)) (n : str) (fs : list (str * field_init)) : str :=
  nest_str l mods ++ path_str (l ++ map fst mods) ++ lit "Route::" ++ n ++ lit "(" ++ path_str (l ++ map fst mods) ++ n
  ++ lit " {" ++ nl ++ fields_str d fs ++ spaces4 d ++ lit "}" ++ lit ")" ++ repeat 41%N (length mods).
Lemma lex_lit_space s : lex (lit "    " ++ s) = lex s.
Proof. reflexivity. Qed.
Lemma lex_fields d fs : forall s, Forall (fun f : str * field_init => is_ident (fst f) = true) fs ->
  lex (fields_str d fs ++ s) = pre (flat_map (fun f => ftoks f ++ [Op (lit ",")]) fs) (lex s).
Proof.
  induction fs as [|[x i] fs IH]; intros s Hf; [reflexivity|]. inversion Hf as [|? ? Hx Hf']; subst. cbn [fst] in Hx.
  unfold fields_str. cbn [map concat flat_map]. fold (fields_str d fs). rewrite <- !app_assoc.
  rewrite lex_spaces, lex_lit_space. rewrite pre_app.
  destruct i; cbn [pr_field ftoks fst snd]; rewrite <- !app_assoc; rewrite lex_word by (exact (ident_wordy _ Hx) || reflexivity);
    lexlit; rewrite lex_nl, IH by assumption; reflexivity.
Qed.
Lemma lex_under l x s : idents l -> is_ident x = true -> edge s = true ->
  lex (path_str l ++ lit "Route::" ++ x ++ s) = pre (ptoks (l ++ [lit "Route"; x])) (lex s).
Proof.
  intros Hl Hx Hs.
  replace (path_str l ++ lit "Route::" ++ x ++ s) with (path_str (l ++ [lit "Route"]) ++ x ++ s)
    by (rewrite path_str_app, <- app_assoc; reflexivity).
  rewrite lex_path; [rewrite <- app_assoc; reflexivity| |exact Hx|exact Hs].
  apply Forall_app. split; [exact Hl|]. repeat constructor.
Qed.
Lemma lex_route d mods n fs : forall l s, idents l ->
  Forall (fun m => is_ident (fst m) = true /\ is_ident (snd m) = true) mods -> is_ident n = true ->
  Forall (fun f : str * field_init => is_ident (fst f) = true) fs ->
  lex (route_str d l mods n fs ++ s) = pre (vtoks (route_val l mods n fs)) (lex s).
Proof.
  induction mods as [|[snake caps] mods IH]; intros l s Hl Hm Hn Hf; unfold route_str.
  - cbn [nest_str map length repeat route_val vtoks]. rewrite app_nil_r. cbn [app]. rewrite <- !app_assoc.
    rewrite lex_under by (assumption || reflexivity). lexlit.
    rewrite lex_path by (assumption || reflexivity). lexlit. rewrite lex_nl, lex_fields by assumption.
    rewrite lex_spaces. lexlit. finish.
  - inversion Hm as [|? ? [H1 H2] Hm']; subst. cbn [fst snd] in *. cbn [nest_str map fst length repeat route_val vtoks].
    rewrite <- !app_assoc. rewrite lex_under by (assumption || reflexivity). lexlit.
    specialize (IH (l ++ [snake]) (lit ")" ++ s)). unfold route_str in IH. rewrite <- !app_assoc in IH. cbn [app] in IH.
    replace ((41%N :: repeat 41%N (length mods)) ++ s) with (repeat 41%N (length mods) ++ lit ")" ++ s).
    2: { change (lit ")") with [41%N]. rewrite app_assoc, <- repeat_cons. reflexivity. }
    rewrite IH; [|apply Forall_app; split; [exact Hl|repeat constructor; exact H1]|assumption|assumption|assumption].
    lexlit. finish.
Qed.
Definition rtoks (r : ret) : list tok := Word (lit "return") :: vtoks (ret_val r).
Lemma lex_ret d r s : good_ret r -> lex (pr_ret (spaces4 d) r ++ s) = pre (rtoks r) (lex s).
Proof.
  destruct r as [| |redirect mods n fs]; cbn [good_ret]; intros H; try reflexivity.
  destruct H as (H1 & H2 & H3). unfold pr_ret, rtoks, ret_val.
  pose proof (pr_nest_eq mods []) as E. change (path_str []) with (@nil N) in E. cbn [app] in E. rewrite E.
  pose proof (lex_route d mods n fs [] (lit "))" ++ s) (Forall_nil _) H1 H2 H3) as Hr. unfold route_str in Hr. cbn [app] in Hr.
  fold (fields_str d fs). rewrite <- !app_assoc in *.
  replace (repeat 41%N (length mods) ++ lit ")))" ++ s) with (lit ")" ++ repeat 41%N (length mods) ++ lit "))" ++ s).
  2: { change (lit ")") with [41%N]. change (lit ")))" ++ s) with ([41%N] ++ lit "))" ++ s).
       rewrite !app_assoc, <- repeat_cons. reflexivity. }
  cbn [vtoks].
  destruct redirect; lexlit; cbn [app] in Hr |- *; rewrite Hr; lexlit; finish.
Qed.

(** ** Statements *)

Definition good_body (h : arm_head) (body : list stmt) : Prop :=
  match h with
  | AHBlock t => plain_lit t = true
  | AHInline t => plain_lit t = true /\ exists r, body = [SReturn r]
  | AHWild => exists r, body = [SReturn r]
  | AHWildUnit => body = []
  | AHSomeSlash | AHStmts => False
  end.
Fixpoint good_stmt (s : stmt) : Prop :=
  match s with
  | SBlank => True
  | SLet x e => is_ident x = true /\ good_expr e
  | SLetUtf8 x src a b => is_ident x = true /\ is_ident src = true /\ good_expr a /\ good_expr b
  | SLetParse x src what => is_ident x = true /\ is_ident src = true /\ forallb text_char what = true
  | SAdd x _ => is_ident x = true
  | SWhile c body | SIf c body => good_bexpr c /\ fold_right (fun s P => good_stmt s /\ P) True body
  | SMatch sc arms =>
      good_scrut sc /\
      fold_right (fun (a : arm_head * list stmt) P =>
                    let (h, body) := a in (good_body h body /\ fold_right (fun s P => good_stmt s /\ P) True body) /\ P)
        True arms
  | SReturn r => good_ret r
  end.
Definition good_block (l : list stmt) : Prop := fold_right (fun s P => good_stmt s /\ P) True l.
Lemma good_block_in l s : good_block l -> In s l -> good_stmt s.
Proof. induction l as [|x l IH]; [intros _ []|]. intros [H1 H2] [<-|H]; auto. Qed.
Lemma good_arms_in sc arms h body : good_stmt (SMatch sc arms) ->
  In (h, body) arms -> good_body h body /\ good_block body.
Proof.
  assert (Hgo : forall l : list (arm_head * list stmt),
    fold_right (fun (a : arm_head * list stmt) P => let (h, body) := a in (good_body h body /\ good_block body) /\ P) True l ->
    In (h, body) l -> good_body h body /\ good_block body).
  { induction l as [|[h' b'] l IH]; [intros _ []|]. intros [H1 H2] [[= <- <-]|H]; auto. }
  intros [_ H]. apply Hgo. exact H.
Qed.

Fixpoint stoks (s : stmt) : list tok :=
  match s with
  | SBlank => []
  | SLet x e => [Word (lit "let"); Word x; Op (lit "=")] ++ etoks e ++ [Op (lit ";")]
  | SLetUtf8 x src a b =>
      [Word (lit "let"); Word x; Op (lit "="); Word (lit "std"); Op (lit "::"); Word (lit "str"); Op (lit "::");
       Word (lit "from_utf8"); Op (lit "(")] ++ sltoks src a b
      ++ [Op (lit ")"); Op (lit "."); Word (lit "unwrap"); Op (lit "("); Op (lit ")"); Op (lit ";")]
  | SLetParse x src what =>
      [Word (lit "let"); Word x; Op (lit "="); Word src; Op (lit "."); Word (lit "parse"); Op (lit "("); Op (lit ")");
       Op (lit "."); Word (lit "map_err"); Op (lit "("); Op (lit "|"); Word (lit "e"); Op (lit "|");
       Word (lit "Error"); Op (lit "::"); Word (lit "fail"); Op (lit "("); Text what; Op (lit ","); Word (lit "e");
       Op (lit ")"); Op (lit ")"); Op (lit "?"); Op (lit ";")]
  | SAdd x n => [Word x; Op (lit "+="); Num (nat_str n); Op (lit ";")]
  | SWhile c body => Word (lit "while") :: btoks c ++ [Op (lit "{")] ++ flat_map stoks body ++ [Op (lit "}")]
  | SIf c body => Word (lit "if") :: btoks c ++ [Op (lit "{")] ++ flat_map stoks body ++ [Op (lit "}")]
  | SMatch sc arms =>
      Word (lit "match") :: sctoks sc ++ [Op (lit "{")]
      ++ flat_map (fun a : arm_head * list stmt =>
           let (h, body) := a in
           match h with
           | AHBlock t => [Bytes t; Op (lit "=>"); Op (lit "{")] ++ flat_map stoks body ++ [Op (lit "}"); Op (lit ",")]
           | AHInline t =>
               [Bytes t; Op (lit "=>")] ++ match body with [SReturn r] => rtoks r | _ => [] end ++ [Op (lit ",")]
           | AHWild =>
               [Word (lit "_"); Op (lit "=>")] ++ match body with [SReturn r] => rtoks r | _ => [] end ++ [Op (lit ",")]
           | _ => [Word (lit "_"); Op (lit "=>"); Op (lit "{"); Op (lit "}"); Op (lit ",")]
           end) arms
      ++ [Op (lit "}")]
  | SReturn r => rtoks r ++ [Op (lit ";")]
  end.
Definition atoks (a : arm_head * list stmt) : list tok :=
  let (h, body) := a in
  match h with
  | AHBlock t => [Bytes t; Op (lit "=>"); Op (lit "{")] ++ flat_map stoks body ++ [Op (lit "}"); Op (lit ",")]
  | AHInline t =>
      [Bytes t; Op (lit "=>")] ++ match body with [SReturn r] => rtoks r | _ => [] end ++ [Op (lit ",")]
  | AHWild =>
      [Word (lit "_"); Op (lit "=>")] ++ match body with [SReturn r] => rtoks r | _ => [] end ++ [Op (lit ",")]
  | _ => [Word (lit "_"); Op (lit "=>"); Op (lit "{"); Op (lit "}"); Op (lit ",")]
  end.

(** The text. *)
Definition stmt_lexes (s : stmt) : Prop :=
  forall d r, good_stmt s -> lex (pr_stmt d s ++ r) = pre (stoks s) (lex r).
Lemma lex_block_of l : Forall stmt_lexes l ->
  forall d r, good_block l -> lex (concat (map (pr_stmt d) l) ++ r) = pre (flat_map stoks l) (lex r).
Proof.
  induction 1 as [|s l Hs Hl IH]; intros d r Hg; [reflexivity|]. destruct Hg as [Hg1 Hg2].
  cbn [map concat flat_map]. rewrite <- app_assoc, Hs by exact Hg1. rewrite IH by exact Hg2. symmetry. apply pre_app.
Qed.
Lemma lex_arms d arms : Forall (fun a : arm_head * list stmt => Forall stmt_lexes (snd a)) arms ->
  (forall h body, In (h, body) arms -> good_body h body /\ good_block body) ->
  forall r,
  lex (concat (map (fun a : arm_head * list stmt =>
                      let (h, body) := a in
                      match h with
                      | AHBlock t =>
                          pr_arm_block (spaces4 (S d)) t
                            (concat (map (pr_stmt (S (S d))) body))
                      | AHInline t => pr_arm_inline (spaces4 (S d)) (byte_lit t) body
                      | AHWild => pr_arm_inline (spaces4 (S d)) (lit "_") body
                      | AHWildUnit => spaces4 (S d) ++ lit "_ => {}," ++ nl
                      | AHSomeSlash => spaces4 (S d) ++ lit "Some('/') => {}" ++ nl
                      | AHStmts => concat (map (pr_stmt d) body)
                      end) arms) ++ r) = pre (flat_map atoks arms) (lex r).
Proof.
  induction 1 as [|[h body] arms Ha Harms IH]; intros Hg r; [reflexivity|].
  assert (Hg' : forall h body, In (h, body) arms -> good_body h body /\ good_block body) by (intros; apply Hg; right; assumption).
  destruct (Hg h body (or_introl eq_refl)) as [Hh Hb]. cbn [snd] in Ha.
  cbn [map concat flat_map]. rewrite <- app_assoc, pre_app. rewrite <- (IH Hg' r).
  set (rest := concat _ ++ r). clearbody rest.
  destruct h as [t|t| | | |]; cbn [good_body] in Hh; unfold pr_arm_block, pr_arm_inline, atoks.
  - rewrite <- !app_assoc. rewrite lex_spaces, lex_bytes by (assumption || reflexivity). lexlit. rewrite lex_nl.
    rewrite (lex_block_of body Ha) by exact Hb. rewrite lex_spaces. lexlit. rewrite lex_nl. finish.
  - destruct Hh as (Hp & x & ->). destruct Hb as [Hb _]. cbn [good_stmt] in Hb.
    rewrite <- !app_assoc. rewrite lex_spaces, lex_bytes by (assumption || reflexivity). lexlit.
    rewrite lex_ret by exact Hb. lexlit. rewrite lex_nl. finish.
  - destruct Hh as (x & ->). destruct Hb as [Hb _]. cbn [good_stmt] in Hb.
    rewrite <- !app_assoc. rewrite lex_spaces. lexlit.
    rewrite lex_ret by exact Hb. lexlit. rewrite lex_nl. finish.
  - rewrite <- !app_assoc. rewrite lex_spaces. lexlit. rewrite lex_nl. finish.
  - destruct Hh.
  - destruct Hh.
Qed.
Lemma lex_stmt s : stmt_lexes s.
Proof.
  induction s as [s Hs|c body IH|c body IH|sc arms IH] using stmt_ind'; intros d r Hg.
  - destruct s as [|x e|x src a b|x src what|x n|c body|c body|sc arms|x]; try discriminate Hs;
      cbn [pr_stmt pr_simple good_stmt stoks] in *; rewrite <- ?app_assoc, ?lex_spaces.
    + apply lex_nl.
    + destruct Hg as [Hx He]. lexlit. rewrite lex_word by (exact (ident_wordy _ Hx) || reflexivity). lexlit.
      rewrite lex_expr by (assumption || reflexivity). lexlit. rewrite lex_nl. finish.
    + destruct Hg as (Hx & Hs' & Ha & Hb). lexlit. rewrite lex_word by (exact (ident_wordy _ Hx) || reflexivity). lexlit.
      rewrite lex_slice by assumption. lexlit. rewrite lex_nl. finish.
    + destruct Hg as (Hx & Hs' & Hw). lexlit. rewrite lex_word by (exact (ident_wordy _ Hx) || reflexivity). lexlit.
      rewrite lex_word by (exact (ident_wordy _ Hs') || reflexivity). lexlit. rewrite lex_nl, lex_spaces. lexlit.
      rewrite lex_text by (exact Hw || reflexivity). lexlit. rewrite lex_nl. finish.
    + rewrite lex_word by (exact (ident_wordy _ Hg) || reflexivity). lexlit. rewrite lex_num by reflexivity. lexlit.
      rewrite lex_nl. finish.
    + rewrite lex_ret by exact Hg. lexlit. rewrite lex_nl. finish.
  - cbn [pr_stmt good_stmt stoks] in *. destruct Hg as [Hc Hb]. unfold pr_block_of. rewrite <- !app_assoc, lex_spaces. lexlit.
    rewrite lex_bexpr by (exact Hc || reflexivity). lexlit. rewrite lex_nl, (lex_block_of body IH) by exact Hb.
    rewrite lex_spaces. lexlit. rewrite lex_nl. finish.
  - cbn [pr_stmt good_stmt stoks] in *. destruct Hg as [Hc Hb]. unfold pr_block_of. rewrite <- !app_assoc, lex_spaces. lexlit.
    rewrite lex_bexpr by (exact Hc || reflexivity). lexlit. rewrite lex_nl, (lex_block_of body IH) by exact Hb.
    rewrite lex_spaces. lexlit. rewrite lex_nl. finish.
  - assert (Ha : forall h body, In (h, body) arms -> good_body h body /\ good_block body)
      by (intros; eapply good_arms_in; eauto).
    cbn [pr_stmt good_stmt stoks] in *. destruct Hg as [Hc _]. unfold pr_block_of. rewrite <- !app_assoc, lex_spaces. lexlit.
    rewrite lex_scrut by (exact Hc || reflexivity). lexlit. rewrite lex_nl, (lex_arms d arms IH) by exact Ha.
    rewrite lex_spaces. lexlit. rewrite lex_nl. unfold atoks. finish.
Qed.
Lemma lex_block d l r : good_block l -> lex (pr_block d l ++ r) = pre (flat_map stoks l) (lex r).
Proof. apply lex_block_of. apply Forall_forall. intros s _. apply lex_stmt. Qed.

(** Reading the tokens. *)
Lemma skip_or {A} (p q : reader A) ts : p ts = None -> or_ p q ts = q ts.
Proof. unfold or_. intros ->. reflexivity. Qed.
Lemma take_or {A} (p q : reader A) ts r : p ts = Some r -> or_ p q ts = Some r.
Proof. unfold or_. intros ->. reflexivity. Qed.
Lemma go_on {A B} (p : reader A) (f : A -> reader B) ts a ts' : p ts = Some (a, ts') -> then_ p f ts = f a ts'.
Proof. unfold then_. intros ->. reflexivity. Qed.
Lemma not_keyword k x ts : In k keywords -> is_ident x = true -> eat (Word (lit k)) (Word x :: ts) = None.
Proof.
  intros Hk Hx. unfold eat. cbn [tok_eqb]. destruct (str_eqb (lit k) x) eqn:E; [|reflexivity]. exfalso.
  unfold is_ident in Hx. destruct x as [|c x]; [discriminate|]. rewrite !andb_true_iff in Hx. destruct Hx as [_ Hx].
  rewrite negb_true_iff in Hx.
  assert (H : existsb (fun k => str_eqb (lit k) (c :: x)) keywords = true)
    by (apply existsb_exists; exists k; split; [exact Hk|exact E]). congruence.
Qed.
Definition canon1 (s : stmt) : stmt := hd SBlank (canon s).
Lemma canon_one s : s <> SBlank -> canon s = [canon1 s].
Proof. destruct s; try reflexivity. congruence. Qed.
Lemma canon_first s : canon s = [] /\ stoks s = [] \/ canon s = [canon1 s] /\ stoks s <> [].
Proof. destruct s; (left; split; reflexivity) || (right; split; [reflexivity|discriminate]). Qed.

Definition stmt_reads (fuel : nat) (s : stmt) : Prop :=
  good_stmt s -> length (stoks s) <= fuel ->
  canon s = [] \/ forall r, r_stmt (r_block fuel) (stoks s ++ r) = Some (canon1 s, r).
Lemma read_block_of l : (forall s, In s l -> forall fuel, stmt_reads fuel s) -> good_block l ->
  forall fuel r, length (flat_map stoks l) < fuel ->
  r_block fuel (flat_map stoks l ++ Op (lit "}") :: r) = Some (canon_block l, Op (lit "}") :: r).
Proof.
  intros Hl Hg fuel r Hf. destruct fuel; [inversion Hf|]. cbn [r_block].
  apply (many__reads (fun _ => True)); [reflexivity|exact I|].
  intros s Hs. destruct (canon_first s) as [?|[H1 H2]]; [left; assumption|]. right. exists (canon1 s).
  split; [exact H1|]. split; [exact H2|]. split; [auto|]. intros r' _.
  assert (Hlen : length (stoks s) <= fuel).
  { assert (length (stoks s) <= length (flat_map stoks l)); [|lia].
    clear -Hs. induction l as [|x l IH]; [destruct Hs|]. cbn [flat_map]. rewrite app_length.
    destruct Hs as [->|Hs]; [lia|]. specialize (IH Hs). lia. }
  destruct (Hl s Hs fuel (good_block_in _ _ Hg Hs) Hlen) as [H|H]; [congruence|]. apply H.
Qed.
Ltac other := rewrite skip_or by reflexivity.
Lemma op_same o ts : op o (Op (lit o) :: ts) = Some (tt, ts).
Proof. apply eat_same. Qed.
Lemma key_same w ts : key w (Word (lit w) :: ts) = Some (tt, ts).
Proof. apply eat_same. Qed.
Ltac onward := repeat first
  [ rewrite (go_on _ _ _ _ _ (op_same _ _)) | rewrite (go_on _ _ _ _ _ (key_same _ _))
  | match goal with
    | H : is_ident ?x = true |- context [then_ name ?f (Word ?x :: ?ts)] => rewrite (go_on name f _ _ _ (name_word x ts H))
    | |- context [then_ name ?f (Word ?x :: ?ts)] => rewrite (go_on name f _ _ _ (name_word x ts eq_refl))
    end
  | rewrite (go_on _ _ _ _ _ (number_num _ _)) ].
Lemma read_arm_return r ts : good_ret r ->
  r_body (fun _ => None) (rtoks r ++ Op (lit ",") :: ts) = Some ([SReturn r], ts).
Proof.
  intros Hr. unfold r_body, rtoks. cbn [app]. other. rewrite (go_on _ _ _ _ _ (read_return r (Op (lit ",") :: ts) Hr (conj eq_refl (conj eq_refl eq_refl)))).
  unfold comma_or, then_, or_. rewrite op_same. reflexivity.
Qed.
Lemma read_arm_return' B r ts : good_ret r -> r_body B (rtoks r ++ Op (lit ",") :: ts) = Some ([SReturn r], ts).
Proof. intros Hr. exact (read_arm_return r ts Hr). Qed.
Definition canon_arm (a : arm_head * list stmt) : arm_head * list stmt :=
  let (h, body) := a in (match h with AHInline t => AHBlock t | h => h end, flat_map canon body).
Lemma read_arm fuel h body :
  (forall s, In s body -> forall fuel, stmt_reads fuel s) -> good_body h body -> good_block body ->
  length (atoks (h, body)) <= fuel ->
  forall r, r_arm (r_block fuel) (atoks (h, body) ++ r) = Some (canon_arm (h, body), r).
Proof.
  intros Hs Hh Hb Hf r. unfold r_arm, canon_arm, atoks in *. destruct h as [t|t| | | |]; cbn [good_body] in Hh.
  - rewrite <- !app_assoc. cbn [app]. apply take_or. unfold then_ at 1. cbn [bytes_lit]. onward.
    unfold r_body, then_ at 1, or_ at 1, then_ at 1. rewrite op_same. unfold then_ at 1.
    change (flat_map stoks body ++ Op (lit "}") :: Op (lit ",") :: r) with (flat_map stoks body ++ Op (lit "}") :: (Op (lit ",") :: r)).
    rewrite !app_length in Hf. cbn [length] in Hf.
    rewrite (read_block_of body Hs Hb) by lia. unfold then_. rewrite op_same. unfold or_. rewrite op_same. reflexivity.
  - destruct Hh as (Hp & x & ->). destruct Hb as [Hb _]. cbn [good_stmt] in Hb.
    rewrite <- !app_assoc. cbn [app]. apply take_or. unfold then_ at 1. cbn [bytes_lit]. onward.
    rewrite (go_on _ _ _ _ _ (read_arm_return' _ x r Hb)). reflexivity.
  - destruct Hh as (x & ->). destruct Hb as [Hb _]. cbn [good_stmt] in Hb.
    rewrite <- !app_assoc. cbn [app]. other. onward.
    rewrite (go_on _ _ _ _ _ (read_arm_return' _ x r Hb)). reflexivity.
  - subst body. cbn [app]. other. onward. unfold r_body, then_ at 1, or_ at 1, then_ at 1. rewrite op_same.
    unfold then_ at 1. cbn [length] in Hf.
    pose proof (read_block_of [] Hs Hb fuel (Op (lit ",") :: r) ltac:(cbn; lia)) as E. cbn [flat_map app] in E. rewrite E.
    unfold then_. rewrite op_same. unfold or_. rewrite op_same. reflexivity.
  - destruct Hh.
  - destruct Hh.
Qed.
Lemma atoks_some a : atoks a <> [].
Proof. destruct a as [[] body]; discriminate. Qed.
Lemma read_stmt s : forall fuel, stmt_reads fuel s.
Proof.
  induction s as [s Hs|c body IH|c body IH|sc arms IH] using stmt_ind'; intros fuel Hg Hf.
  - destruct s as [|x e|x src a b|x src what|x n|c body|c body|sc arms|x]; try discriminate Hs;
      [left; reflexivity|..]; right; intros r; unfold r_stmt; cbn [stoks canon1 canon hd good_stmt] in *.
    + destruct Hg as [Hx He]. apply take_or. unfold r_let. cbn [app]. onward.
      rewrite skip_or.
      * rewrite skip_or.
        -- rewrite <- app_assoc. rewrite (go_on _ _ _ _ _ (read_expr e ([Op (lit ";")] ++ r) He eq_refl)). cbn [app]. onward. reflexivity.
        -- destruct e as [y|n|y n]; cbn [etoks app good_expr] in *; [onward; reflexivity|reflexivity|onward; reflexivity].
      * unfold then_ at 1. destruct e as [y|n|y n]; cbn [etoks app]; try reflexivity;
          unfold key, eat; cbn [tok_eqb]; destruct (str_eqb (lit "std") y); reflexivity.
    + destruct Hg as (Hx & Hs' & Ha & Hb). apply take_or. unfold r_let. cbn [app]. onward. apply take_or. onward.
      rewrite <- app_assoc. rewrite (go_on _ _ _ _ _ (read_slice src a b _ Hs' Ha Hb)). cbn [app]. onward. reflexivity.
    + destruct Hg as (Hx & Hs' & Hw). apply take_or. unfold r_let. cbn [app]. onward. rewrite skip_or.
      * apply take_or. onward. unfold then_ at 1. cbn [text]. onward. reflexivity.
      * unfold then_ at 1. unfold key, eat. cbn [tok_eqb]. destruct (str_eqb (lit "std") src); reflexivity.
    + cbn [app].
      assert (Hk : forall k ts, In k keywords -> key k (Word x :: ts) = None) by (intros; apply not_keyword; assumption).
      rewrite skip_or by (unfold r_let, then_ at 1; rewrite Hk by (cbn; tauto); reflexivity).
      rewrite skip_or by (unfold r_return_stmt, r_return, then_ at 1; unfold then_ at 1; rewrite Hk by (cbn; tauto); reflexivity).
      rewrite skip_or by (unfold then_ at 1; rewrite Hk by (cbn; tauto); reflexivity).
      rewrite skip_or by (unfold then_ at 1; rewrite Hk by (cbn; tauto); reflexivity).
      rewrite skip_or by (unfold then_ at 1; rewrite Hk by (cbn; tauto); reflexivity).
      unfold r_add. onward. reflexivity.
    + other. apply take_or. unfold r_return_stmt, rtoks. rewrite <- app_assoc. cbn [app].
      rewrite (go_on _ _ _ _ _ (read_return x (Op (lit ";") :: r) Hg (conj eq_refl (conj eq_refl eq_refl)))).
      unfold then_, or_. rewrite op_same. reflexivity.
  - right. intros r. unfold r_stmt. cbn [stoks canon1 canon hd good_stmt app] in *. destruct Hg as [Hc Hb].
    other. other. apply take_or. onward. repeat (progress (rewrite <- ?app_assoc; cbn [app])).
    rewrite (go_on _ _ _ _ _ (read_bexpr c (Op (lit "{") :: _) Hc (conj eq_refl eq_refl))). onward.
    cbn [length] in Hf. rewrite !app_length in Hf. cbn [length] in Hf. rewrite app_length in Hf. cbn [length] in Hf.
    rewrite (go_on _ _ _ _ _ (read_block_of body (fun s Hs => proj1 (Forall_forall _ _) IH s Hs) Hb fuel r ltac:(lia))).
    onward. reflexivity.
  - right. intros r. unfold r_stmt. cbn [stoks canon1 canon hd good_stmt app] in *. destruct Hg as [Hc Hb].
    other. other. other. apply take_or. onward. repeat (progress (rewrite <- ?app_assoc; cbn [app])).
    rewrite (go_on _ _ _ _ _ (read_bexpr c (Op (lit "{") :: _) Hc (conj eq_refl eq_refl))). onward.
    cbn [length] in Hf. rewrite !app_length in Hf. cbn [length] in Hf. rewrite app_length in Hf. cbn [length] in Hf.
    rewrite (go_on _ _ _ _ _ (read_block_of body (fun s Hs => proj1 (Forall_forall _ _) IH s Hs) Hb fuel r ltac:(lia))).
    onward. reflexivity.
  - assert (Ha : forall h body, In (h, body) arms -> good_body h body /\ good_block body)
      by (intros; eapply good_arms_in; eauto).
    right. intros r.
    change (canon1 (SMatch sc arms)) with (SMatch sc (map canon_arm arms)).
    change (stoks (SMatch sc arms)) with (Word (lit "match") :: sctoks sc ++ [Op (lit "{")] ++ flat_map atoks arms ++ [Op (lit "}")]) in *.
    cbn [length] in Hf. rewrite !app_length in Hf. cbn [length] in Hf.
    assert (Hm : many_ (r_arm (r_block fuel)) (flat_map atoks arms ++ Op (lit "}") :: r) = Some (map canon_arm arms, Op (lit "}") :: r)).
    { apply many__map; [reflexivity|].
      intros [h body] Hin. split; [apply atoks_some|]. destruct (Ha h body Hin) as [H1 H2]. apply read_arm; auto.
      + rewrite Forall_forall in IH. specialize (IH _ Hin). cbn [snd] in IH. rewrite Forall_forall in IH. exact IH.
      + assert (length (atoks (h, body)) <= length (flat_map atoks arms)); [|lia].
        clear -Hin. induction arms as [|y l IH]; [destruct Hin|]. cbn [flat_map]. rewrite app_length.
        destruct Hin as [->|Hin]; [lia|]. specialize (IH Hin). lia. }
    destruct Hg as [Hc _]. unfold r_stmt. cbn [app].
    other. other. other. other. apply take_or. onward. repeat (progress (rewrite <- ?app_assoc; cbn [app])).
    rewrite (go_on _ _ _ _ _ (read_scrut sc (Op (lit "{") :: _) Hc)). onward.
    rewrite (go_on _ _ _ _ _ Hm). onward. reflexivity.
Qed.
Lemma read_block l fuel r : good_block l -> length (flat_map stoks l) < fuel ->
  r_block fuel (flat_map stoks l ++ Op (lit "}") :: r) = Some (canon_block l, Op (lit "}") :: r).
Proof. intros Hg. apply read_block_of; [|exact Hg]. intros s _. apply read_stmt. Qed.
