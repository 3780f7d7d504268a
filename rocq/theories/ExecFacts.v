(** * ExecFacts: running the generated program

    [trie_run] describes, on the trie, what the generated statements do; the
    main lemma [exec_gen_trie] shows that running the program of [gen_trie]
    gives exactly that. *)
From Verif Require Import Base Core Trie Flat MiniRust Gen BaseFacts.

(** ** Unfolding equations (the local fixpoints are the block functions) *)
Section Unfold.
Context {T E : Type}.
Variable rt : runtime T E.
Variable senv : struct_env.

Lemma exec_block_cons fuel en s l :
  exec_block rt senv fuel en (s :: l) =
  match exec_stmt rt senv fuel en s l with
  | ONext en' => exec_block rt senv fuel en' l
  | o => o
  end.
Proof. reflexivity. Qed.


Lemma exec_stmt_if fuel en c body rest :
  exec_stmt rt senv fuel en (SIf c body) rest =
  match eval_bexpr rt en c with
  | None => OStuck
  | Some None => OPanic
  | Some (Some false) => ONext en
  | Some (Some true) => leave en (exec_block rt senv fuel en body)
  end.
Proof.
  simpl. destruct (eval_bexpr rt en c) as [[[|]|]|]; auto. f_equal.
  revert en. induction body as [|s body IH]; intros en; simpl; auto.
  destruct (exec_stmt rt senv fuel en s body); auto.
Qed.

Fixpoint exec_arms (fuel : nat) (en : env T) (v : bytes) (arms : list (arm_head * list stmt))
    : outcome T E :=
  match arms with
  | [] => OStuck
  | (h, body) :: arms' =>
      if arm_matches h v then leave en (exec_block rt senv fuel en body)
      else exec_arms fuel en v arms'
  end.
Lemma exec_stmt_match fuel en sc arms rest :
  exec_stmt rt senv fuel en (SMatch sc arms) rest =
  match eval_scrut rt en sc with
  | None => OStuck
  | Some None => OPanic
  | Some (Some v) => exec_arms fuel en v arms
  end.
Proof.
  simpl. destruct (eval_scrut rt en sc) as [[v|]|]; auto.
  induction arms as [|[h body] arms IH]; simpl; auto.
  destruct (arm_matches h v); auto. f_equal.
  clear IH. revert en. induction body as [|s body IH]; intros en; simpl; auto.
  destruct (exec_stmt rt senv fuel en s body); auto.
Qed.

Fixpoint exec_loop (fuel : nat) (c : bexpr) (body : list stmt) (k : nat) (en : env T) : outcome T E :=
  match k with
  | O => OFuel
  | S k' =>
      match eval_bexpr rt en c with
      | None => OStuck
      | Some None => OPanic
      | Some (Some false) => ONext en
      | Some (Some true) =>
          match leave en (exec_block rt senv fuel en body) with
          | ONext en' => exec_loop fuel c body k' en'
          | o => o
          end
      end
  end.
Lemma exec_stmt_while fuel en c body rest :
  exec_stmt rt senv fuel en (SWhile c body) rest = exec_loop fuel c body fuel en.
Proof.
  simpl.
  assert (Hb : forall l en,
    (fix block (en : env T) (l : list stmt) {struct l} : outcome T E :=
       match l with
       | [] => ONext en
       | s :: l' =>
           match exec_stmt rt senv fuel en s l' with
           | ONext en' => block en' l'
           | o => o
           end
       end) en l = exec_block rt senv fuel en l).
  { induction l as [|s l IH]; intros e; simpl; auto.
    destruct (exec_stmt rt senv fuel e s l); auto. }
  generalize fuel at 2 4 as k. intros k. revert en. induction k as [|k IH]; intros en; simpl; auto.
  destruct (eval_bexpr rt en c) as [[[|]|]|]; auto.
  rewrite Hb. destruct (leave en (exec_block rt senv fuel en body)); auto.
Qed.

Lemma check_block_cons te s l d :
  check_block senv te (s :: l) d =
  match check_stmt senv te s l with
  | Some (te', d') => check_block senv te' l (d || d')
  | None => None
  end.
Proof. reflexivity. Qed.
Lemma check_inner te l d :
  (fix block (env : tenv) (l : list stmt) (d : bool) {struct l} : option bool :=
     match l with
     | [] => Some d
     | s :: l' =>
         match check_stmt senv env s l' with
         | Some (env', d') => block env' l' (d || d')
         | None => None
         end
     end) te l d = check_block senv te l d.
Proof.
  revert te d. induction l as [|s l IH]; intros te d; simpl; auto.
  destruct (check_stmt senv te s l) as [[te' d']|]; auto.
Qed.
Lemma check_stmt_if te c body rest :
  check_stmt senv te (SIf c body) rest =
  if check_bexpr te c then
    match check_block senv te body false with Some _ => Some (te, false) | None => None end
  else None.
Proof. simpl. rewrite check_inner. reflexivity. Qed.
Lemma check_stmt_while te c body rest :
  check_stmt senv te (SWhile c body) rest =
  if check_bexpr te c then
    match check_block senv te body false with Some _ => Some (te, false) | None => None end
  else None.
Proof. simpl. rewrite check_inner. reflexivity. Qed.
Definition check_arm (te : tenv) (a : arm_head * list stmt) : option bool :=
  let (h, body) := a in
  match h with
  | AHBlock t => if plain_lit t then check_block senv te body false else None
  | AHInline t =>
      if plain_lit t then
        match body with [SReturn _] => check_block senv te body false | _ => None end
      else None
  | AHWild => match body with [SReturn _] => check_block senv te body false | _ => None end
  | AHWildUnit => match body with [] => Some false | _ => None end
  | AHSomeSlash | AHStmts => None
  end.
Fixpoint check_arms (te : tenv) (arms : list (arm_head * list stmt)) : option bool :=
  match arms with
  | [] => Some true
  | a :: arms' =>
      match check_arm te a, check_arms te arms' with
      | Some d1, Some d2 => Some (d1 && d2)
      | _, _ => None
      end
  end.
Lemma check_stmt_match te sc arms rest :
  check_stmt senv te (SMatch sc arms) rest =
  if check_scrut te sc && existsb (fun a => is_wild (fst a)) arms then
    match check_arms te arms with Some d => Some (te, d) | None => None end
  else None.
Proof.
  simpl. destruct (check_scrut te sc && existsb (fun a => is_wild (fst a)) arms); auto.
  match goal with
  | |- match ?x with _ => _ end = match ?y with _ => _ end => assert (x = y) as ->; [|reflexivity]
  end.
  induction arms as [|[h body] arms IH]; [reflexivity|].
  rewrite IH. cbn [check_arms]. unfold check_arm.
  destruct h; rewrite ?check_inner; reflexivity.
Qed.

Lemma uses_inner x l :
  (fix uses (l : list stmt) : list str :=
     match l with
     | [] => []
     | s :: l' => stmt_uses senv x s ++ (if binds x s then [] else uses l')
     end) l = block_uses senv x l.
Proof.
  induction l as [|s l IH]; simpl; auto. rewrite IH. reflexivity.
Qed.
Lemma stmt_uses_if x c body : stmt_uses senv x (SIf c body) = block_uses senv x body.
Proof. simpl. apply uses_inner. Qed.
Lemma stmt_uses_while x c body : stmt_uses senv x (SWhile c body) = block_uses senv x body.
Proof. simpl. apply uses_inner. Qed.
Lemma stmt_uses_match x sc arms :
  stmt_uses senv x (SMatch sc arms) = concat (map (fun a => block_uses senv x (snd a)) arms).
Proof.
  simpl. induction arms as [|[h body] arms IH]; simpl; auto.
  rewrite IH. f_equal. apply uses_inner.
Qed.
Lemma block_uses_cons x s l :
  block_uses senv x (s :: l) = stmt_uses senv x s ++ (if binds x s then [] else block_uses senv x l).
Proof. reflexivity. Qed.
Lemma block_uses_app x a b u :
  In u (block_uses senv x (a ++ b)) -> In u (block_uses senv x a) \/ In u (block_uses senv x b).
Proof.
  induction a as [|s a IH]; simpl; auto.
  rewrite !in_app_iff. destruct (binds x s); simpl; tauto.
Qed.
Lemma block_uses_cons_in x s l u :
  In u (block_uses senv x (s :: l)) -> In u (stmt_uses senv x s) \/ In u (block_uses senv x l).
Proof.
  rewrite block_uses_cons, in_app_iff. destruct (binds x s); simpl; tauto.
Qed.
End Unfold.

(** ** Sub-tries *)
Inductive subtrie {K V} (x : Trie K V) : Trie K V -> Prop :=
| sub_refl : subtrie x x
| sub_step t k c : In (k, c) (t_children t) -> subtrie x c -> subtrie x t.

Lemma subtrie_trans {K V} (a b c : Trie K V) : subtrie a b -> subtrie b c -> subtrie a c.
Proof.
  intros Hab Hbc. induction Hbc as [|t k c' Hin _ IH]; auto.
  eapply sub_step; eauto.
Qed.
Lemma subtrie_child {K V} (t : Trie K V) k c : In (k, c) (t_children t) -> subtrie c t.
Proof. intros H. eapply sub_step; [exact H | apply sub_refl]. Qed.
Lemma chase_sub : forall n (t : ctrie), trie_height t <= n -> subtrie (snd (chase t)) t.
Proof.
  induction n as [|n IH]; intros [d ch] Hh; [simpl in Hh; lia|].
  destruct ch as [|[[c|nm|] t'] [|? ?]]; try apply sub_refl.
  simpl. simpl in Hh.
  specialize (IH t'). destruct (chase t') as [s t''] eqn:E. simpl in *.
  eapply sub_step; [left; reflexivity|]. apply IH. lia.
Qed.
Lemma height_child {K V} (t c : Trie K V) k : In (k, c) (t_children t) -> trie_height c < trie_height t.
Proof.
  destruct t as [d ch]. simpl. induction ch as [|[k' c'] ch IH]; simpl; [tauto|].
  intros [E|H].
  - injection E as <- <-. lia.
  - specialize (IH H). lia.
Qed.
(** [unamb] by cases on its own tests, without the local fixpoint. *)
Fixpoint the_static (l : list (Charlike * ctrie)) : option (char * ctrie) :=
  match l with
  | [] => None
  | (CStatic c, t) :: _ => Some (c, t)
  | _ :: l' => the_static l'
  end.
Lemma unamb_eq (t : ctrie) :
  unamb t =
  if existsb (fun c => is_separator (fst c)) (t_children t) then ([], 0, t)
  else if (length (filter (fun c => is_static (fst c)) (t_children t)) =? 1)%nat then
    match the_static (t_children t) with
    | Some (c, t') => let '(s, n, t'') := unamb t' in (c :: s, S n, t'')
    | None => ([], 1, t)
    end
  else ([], 1, t).
Proof.
  destruct t as [d ch]. simpl.
  destruct (existsb (fun c => is_separator (fst c)) ch); auto.
  destruct (length (filter (fun c => is_static (fst c)) ch) =? 1)%nat; auto.
  set (t0 := mkTrie d ch). clearbody t0.
  induction ch as [|[[c|n|] t'] ch IH]; simpl; auto.
Qed.
Lemma the_static_in l c t : the_static l = Some (c, t) -> In (CStatic c, t) l.
Proof.
  induction l as [|[[ch|nm|] t'] l IH]; simpl; try discriminate.
  - intros [= -> ->]. auto.
  - auto.
  - auto.
Qed.
Lemma unamb_sub : forall n (t : ctrie), trie_height t <= n -> subtrie (snd (unamb t)) t.
Proof.
  induction n as [|n IH]; intros t Hh; [destruct t; simpl in Hh; lia|].
  rewrite unamb_eq.
  destruct (existsb _ _); [apply sub_refl|].
  destruct (_ =? 1)%nat; [|apply sub_refl].
  destruct (the_static (t_children t)) as [[c t']|] eqn:Es; [|apply sub_refl].
  apply the_static_in in Es. pose proof (height_child _ _ _ Es).
  specialize (IH t' ltac:(lia)). destruct (unamb t') as [[s l] t''].
  simpl in *. eapply sub_step; eauto.
Qed.
Lemma find_dynamic_in l n t : find_dynamic l = Some (n, t) -> In (CDynamic n, t) l.
Proof.
  induction l as [|[[c|nm|] t'] l IH]; simpl; try discriminate.
  - auto.
  - intros [= -> ->]. auto.
  - auto.
Qed.

(** ** What the program does, on the trie *)
Definition reserved : list str := [s_i; s_len; s_path; s_method; s_text; s_start].
(** Those of type [usize]. *)
Definition counters : list str := [s_i; s_len; s_start].

(** The bytes up to the next slash, and the rest from that slash on. *)
Fixpoint span_segment (l : bytes) : bytes * bytes :=
  match l with
  | [] => ([], [])
  | b :: l' => if N.eqb b c_slash then ([], l) else let (s, r) := span_segment l' in (b :: s, r)
  end.
Fixpoint find_static (b : byte) (l : list (Charlike * ctrie)) : option ctrie :=
  match l with
  | [] => None
  | (CStatic c, t) :: l' => if N.eqb b c then Some t else find_static b l'
  | _ :: l' => find_static b l'
  end.

Section TrieRun.
Context {T E : Type}.
Variable rt : runtime T E.
Variable method : bytes.
(** The type of the parameter that leads to the given sub-trie. *)
Variable tyf : ctrie -> str.

(** Values of the parameters bound so far, innermost first: name, type, value. *)
Definition values := list (str * (str * T)).

Definition param_field (vals : values) (p : Param) : str * fval T :=
  (p_name p, match lookup (p_name p) vals with Some (t, v) => FvVal t v | None => FvNone end).
Definition none_field (p : Param) : str * fval T := (p_name p, FvNone).
Definition route_of (fr : FlattenedRoute) (r : Resource) (vals : values) : route_value T :=
  mkRoute (map to_caps_case (r_modules r)) (to_caps_case (r_name r))
    (map (param_field vals) (dynamics (f_path fr))
     ++ map none_field (f_query fr) ++ map none_field (r_query r)).
Definition dispatch (fr : FlattenedRoute) (vals : values) : run_result T E :=
  match find (fun r => str_eqb method (method_display (r_method r))) (f_resources fr) with
  | Some r =>
      RunResult (if r_is_redirect r then MRedirect (route_of fr r vals)
                 else MRoute (route_of fr r vals))
  | None => RunResult MNotAllowed
  end.

Section Rec.
Variable rec : ctrie -> values -> bytes -> run_result T E.
Definition run_dynamic (child : ctrie) (name : str) (vals : values) (rest : bytes)
    : run_result T E :=
  let (seg, rest') := span_segment rest in
  if utf8_valid seg then
    match rt_parse rt (tyf child) seg with
    | inl v => rec child ((name, (tyf child, v)) :: vals) rest'
    | inr e => RunResult (MError name e)
    end
  else RunPanic.
Definition run_many (t : ctrie) (vals : values) (rest : bytes) : run_result T E :=
  let '(u, l, next) := unamb t in
  let n := if (l =? 0)%nat then 1 else l in
  match u with
  | _ :: _ =>
      match find_dynamic (t_children t) with
      | None => RunResult MNotFound
      | Some (name, dchild) =>
          if (n =? 1)%nat && (length rest =? 0)%nat then RunPanic
          else if (n <=? length rest)%nat && str_eqb (firstn n rest) u
          then rec next vals (skipn n rest)
          else run_dynamic dchild name vals rest
      end
  | [] =>
      match rest with
      | [] => RunResult MNotFound
      | b :: rest' =>
          match find_static b (t_children t) with
          | Some child => rec child vals rest'
          | None => RunResult MNotFound
          end
      end
  end.
Definition run_children (t : ctrie) (vals : values) (rest : bytes) : run_result T E :=
  match t_children t with
  | [] => RunResult MNotFound
  | [(CSeparator, child)] =>
      match rest with
      | [] => match has_resources (t_data child) with
              | Some fr => dispatch fr vals
              | None => RunResult MNotFound
              end
      | b :: rest' => if N.eqb b c_slash then rec child vals rest' else RunResult MNotFound
      end
  | [(CStatic ch, child)] =>
      let (more, child') := chase child in
      if is_prefix (ch :: more) rest
      then rec child' vals (skipn (length (ch :: more)) rest)
      else RunResult MNotFound
  | [(CDynamic name, child)] => run_dynamic child name vals rest
  | _ => run_many t vals rest
  end.
End Rec.

Fixpoint trie_run (fuel : nat) (t : ctrie) (vals : values) (rest : bytes) : run_result T E :=
  match fuel with
  | O => RunResult MNotFound
  | S fuel' =>
      match has_resources (t_data t), rest with
      | Some fr, [] => dispatch fr vals
      | _, _ => run_children (trie_run fuel') t vals rest
      end
  end.
End TrieRun.

(** ** Environments *)
Section Exec.
Context {T E : Type}.
Variable rt : runtime T E.
Variable senv : struct_env.
Variable tyf : ctrie -> str.
Variables (path method : bytes).

Definition out (r : run_result T E) : outcome T E :=
  match r with RunResult m => ORet m | RunPanic => OPanic end.

Definition bval (tv : str * T) : bool * val T := (false, VVal (fst tv) (snd tv)).
Definition bty (tv : str * T) : bool * ty := (false, TVal (fst tv)).

(** The environment holds the matcher's variables, [i] at the given position. *)
Record env_inv (en : env T) (i : nat) : Prop := {
  ei_i : lookup s_i en = Some (true, VUsize i);
  ei_len : lookup s_len en = Some (false, VUsize (length path));
  ei_path : lookup s_path en = Some (false, VBytes path);
  ei_le : i <= length path
}.
(** Where the types say that a variable is the method or a parameter, it is;
    [usize] variables are [i], [len] and [start]. *)
Record tenv_inv (te : tenv) (en : env T) (vals : @values T) : Prop := {
  ti_i : lookup s_i te = Some (true, TUsize);
  ti_method : forall m, lookup s_method te = Some (m, TBytes) ->
      lookup s_method en = Some (false, VBytes method);
  ti_vals : forall x m t, lookup x te = Some (m, TVal t) ->
      exists v, lookup x vals = Some (t, v) /\ lookup x en = Some (false, VVal t v);
  ti_usize : forall x m, lookup x te = Some (m, TUsize) -> In x counters
}.

Lemma lookup_cons_ne {A} x y (a : A) l : y <> x -> lookup x ((y, a) :: l) = lookup x l.
Proof. intros H. simpl. apply str_eqb_neq in H. rewrite H. reflexivity. Qed.
Lemma lookup_cons_eq {A} x (a : A) l : lookup x ((x, a) :: l) = Some a.
Proof. simpl. rewrite str_eqb_refl. reflexivity. Qed.

Ltac neq := solve [intros ?Hneq; vm_compute in Hneq; discriminate].

Lemma env_inv_bind en i x a :
  x <> s_i -> x <> s_len -> x <> s_path -> env_inv en i -> env_inv ((x, a) :: en) i.
Proof. intros N1 N2 N3 [H1 H2 H3 H4]. split; auto; rewrite lookup_cons_ne; auto. Qed.
Lemma env_inv_temp en i x a :
  In x [s_text; s_start] -> env_inv en i -> env_inv ((x, a) :: en) i.
Proof. intros Hx. apply env_inv_bind; destruct Hx as [<-|[<-|[]]]; neq. Qed.
Lemma tenv_inv_text te en vals b :
  tenv_inv te en vals -> tenv_inv ((s_text, (false, TStr)) :: te) ((s_text, (false, VStr b)) :: en) vals.
Proof.
  intros [H1 H2 H3 H4]. split.
  - rewrite lookup_cons_ne; [exact H1|neq].
  - intros m. rewrite !lookup_cons_ne by neq. apply H2.
  - intros x m t. destruct (str_eqb_spec s_text x) as [<-|Hn].
    + rewrite lookup_cons_eq. discriminate.
    + rewrite !lookup_cons_ne by exact Hn. apply H3.
  - intros x m. destruct (str_eqb_spec s_text x) as [<-|Hn].
    + rewrite lookup_cons_eq. discriminate.
    + rewrite !lookup_cons_ne by exact Hn. apply H4.
Qed.
Lemma tenv_inv_start te en vals i :
  tenv_inv te en vals ->
  tenv_inv ((s_start, (false, TUsize)) :: te) ((s_start, (false, VUsize i)) :: en) vals.
Proof.
  intros [H1 H2 H3 H4]. split.
  - rewrite lookup_cons_ne; [exact H1|neq].
  - intros m. rewrite !lookup_cons_ne by neq. apply H2.
  - intros x m t. destruct (str_eqb_spec s_start x) as [<-|Hn].
    + rewrite lookup_cons_eq. discriminate.
    + rewrite !lookup_cons_ne by exact Hn. apply H3.
  - intros x m. destruct (str_eqb_spec s_start x) as [<-|Hn].
    + intros _. simpl. tauto.
    + rewrite !lookup_cons_ne by exact Hn. apply H4.
Qed.
Lemma tenv_inv_val te en vals x t (v : T) :
  x <> s_i -> tenv_inv te en vals ->
  tenv_inv ((x, (false, TVal t)) :: te) ((x, (false, VVal t v)) :: en) ((x, (t, v)) :: vals).
Proof.
  intros Hx [H1 H2 H3 H4]. split.
  - rewrite lookup_cons_ne; [exact H1|exact Hx].
  - intros m. destruct (str_eqb_spec x s_method) as [->|Hn].
    + rewrite lookup_cons_eq. discriminate.
    + rewrite !lookup_cons_ne by exact Hn. apply H2.
  - intros y m u. destruct (str_eqb_spec x y) as [<-|Hn].
    + rewrite !lookup_cons_eq. intros [= _ <-]. eauto.
    + rewrite !lookup_cons_ne by exact Hn. apply H3.
  - intros y m. destruct (str_eqb_spec x y) as [<-|Hn].
    + rewrite lookup_cons_eq. discriminate.
    + rewrite !lookup_cons_ne by exact Hn. apply H4.
Qed.
(** Advancing [i] changes no other variable. *)
Lemma tenv_inv_same te en en' vals :
  (forall y, y <> s_i -> lookup y en' = lookup y en) -> tenv_inv te en vals -> tenv_inv te en' vals.
Proof.
  intros Hy [H1 H2 H3 H4]. split; auto.
  - intros m Hm. rewrite Hy by neq. eauto.
  - intros x m t Hm. rewrite Hy; [eauto|]. intros ->. congruence.
Qed.

Lemma add_assign_spec x n (en : env T) k :
  lookup x en = Some (true, VUsize k) ->
  exists en', add_assign x n en = Some en' /\ length en' = length en /\
    lookup x en' = Some (true, VUsize (k + n)) /\ (forall y, y <> x -> lookup y en' = lookup y en).
Proof.
  induction en as [|[y [m v]] en IH]; [discriminate|].
  simpl. destruct (str_eqb_spec y x) as [->|Hn].
  - intros [= -> ->]. eexists. split; [reflexivity|]. split; [reflexivity|]. split.
    + simpl. rewrite str_eqb_refl. reflexivity.
    + intros y Hy. simpl. rewrite str_eqb_sym. apply str_eqb_neq in Hy. rewrite Hy. reflexivity.
  - intros H. destruct (IH H) as (en' & -> & Hl & Hx & Hy).
    eexists. split; [reflexivity|]. split; [simpl; auto|]. split.
    + simpl. apply str_eqb_neq in Hn. rewrite Hn. exact Hx.
    + intros z Hz. simpl. rewrite Hy; auto.
Qed.
Lemma add_i en i n :
  env_inv en i -> i + n <= length path ->
  exists en', add_assign s_i n en = Some en' /\ length en' = length en /\ env_inv en' (i + n) /\
    (forall y, y <> s_i -> lookup y en' = lookup y en).
Proof.
  intros [H1 H2 H3 H4] Hle.
  destruct (add_assign_spec s_i n en i H1) as (en' & Ha & Hl & Hx & Hy).
  exists en'. split; auto. split; auto. split; auto.
  split; auto; try (rewrite Hy; auto; neq).
Qed.

Lemma leave_same (en en' : env T) : length en' = length en -> @leave T E en (ONext en') = ONext en'.
Proof. intros H. simpl. rewrite H, Nat.sub_diag. reflexivity. Qed.

(** Slices of the path. *)
Lemma path_slice_eval en i n :
  env_inv en i ->
  eval_scrut rt en (path_slice n) =
  Some (if (n <=? length (skipn i path))%nat then Some (firstn n (skipn i path)) else None).
Proof.
  intros H. unfold path_slice, eval_scrut, eval_slice, eval_expr, get_usize.
  rewrite (ei_path _ _ H), (ei_i _ _ H). unfold slice.
  replace (i <=? i + n)%nat with true by (symmetry; apply Nat.leb_le; lia).
  rewrite skipn_length. replace (i + n - i) with n by lia. pose proof (ei_le _ _ H).
  cbn [andb]. destruct (Nat.leb_spec n (length path - i)).
  - rewrite (leb_correct (i + n)) by lia. reflexivity.
  - rewrite (leb_correct_conv _ (i + n)) by lia. reflexivity.
Qed.
Lemma i_eq_len_eval en i :
  env_inv en i ->
  eval_bexpr rt en i_eq_len = Some (Some (match skipn i path with [] => true | _ => false end)).
Proof.
  intros H. unfold i_eq_len, eval_bexpr, cmp_expr, eval_expr, get_usize.
  rewrite (ei_len _ _ H), (ei_i _ _ H). pose proof (ei_le _ _ H).
  pose proof (skipn_length i path) as Hs.
  destruct (Nat.eqb_spec i (length path)) as [->|Hn].
  - rewrite skipn_all. reflexivity.
  - destruct (skipn i path); auto. simpl in Hs. lia.
Qed.

(** ** The method check *)
Lemma eval_fields_ok en te vals fields fs :
  tenv_inv te en vals ->
  (forall x fd, In (x, FVar) fields -> lookup_field fs x = Some fd -> fd_typ fd = s_usize -> ~ In x counters) ->
  forallb (fun f : str * field_init =>
             match lookup_field fs (fst f) with
             | None => false
             | Some fd =>
                 match snd f with
                 | FNone => fd_opt fd && negb (unit_struct senv (lit "None"))
                 | FVar =>
                     negb (fd_opt fd) &&
                     match lookup (fst f) te with
                     | Some (_, TVal t) => str_eqb t (fd_typ fd)
                     | Some (_, TUsize) => str_eqb s_usize (fd_typ fd)
                     | _ => false
                     end
                 end
             end) fields = true ->
  eval_fields en fields =
  Some (map (fun f : str * field_init =>
               (fst f, match snd f with
                       | FNone => FvNone
                       | FVar => match lookup (fst f) vals with
                                 | Some (t, v) => FvVal t v
                                 | None => FvNone
                                 end
                       end)) fields).
Proof.
  intros Ht Hr Hc. induction fields as [|[x f] fields IH]; [reflexivity|].
  simpl in Hc. apply andb_true_iff in Hc. destruct Hc as [Hc1 Hc2].
  assert (IH' := IH (fun y fd Hy => Hr y fd (or_intror Hy)) Hc2). clear IH.
  cbn [eval_fields map fst snd]. rewrite IH'. destruct f; [|reflexivity].
  assert (Hx := fun fd => Hr x fd (or_introl eq_refl)).
  destruct (lookup_field fs x) as [fd|]; [|discriminate].
  apply andb_true_iff in Hc1. destruct Hc1 as [_ Hc1].
  destruct (lookup x te) as [[m [| | |t]]|] eqn:El; try discriminate.
  - exfalso. apply (Hx fd eq_refl); [symmetry; apply str_eqb_eq; exact Hc1|].
    eapply (ti_usize _ _ _ Ht). exact El.
  - destruct (ti_vals _ _ _ Ht x m t El) as (v & -> & ->). reflexivity.
Qed.

(** No parameter that a struct literal of the block uses at type [usize] is
    named like a counter of the matcher. *)
Definition uncaught (fr : FlattenedRoute) : Prop :=
  forall r p, In r (f_resources fr) -> In p (dynamics (f_path fr)) ->
  In s_usize (ret_uses senv (p_name p) (resource_ret fr r)) -> ~ In (p_name p) counters.
Lemma ret_uses_field redirect mods name fields fs x fd :
  lookup_struct senv mods name = Some fs -> In (x, FVar) fields -> lookup_field fs x = Some fd ->
  In (fd_typ fd) (ret_uses senv x (RetRoute redirect mods name fields)).
Proof.
  intros H1 H2 H3. unfold ret_uses. rewrite H1. apply in_concat. exists [fd_typ fd].
  split; [|left; reflexivity]. apply in_map_iff. exists (x, FVar).
  rewrite str_eqb_refl, H3. auto.
Qed.
Lemma check_ret_eval en te vals fr r :
  tenv_inv te en vals -> uncaught fr -> In r (f_resources fr) ->
  check_ret senv te (resource_ret fr r) = true ->
  eval_ret en (resource_ret fr r) =
  @ORet T E (if r_is_redirect r then MRedirect (route_of fr r vals) else MRoute (route_of fr r vals)).
Proof.
  intros Ht Hr Hin Hc. pose proof (Hr r) as Hr'. unfold resource_ret, eval_ret, check_ret in *.
  destruct (lookup_struct senv _ _) as [fs|] eqn:El; [|discriminate].
  rewrite !andb_true_iff in Hc. destruct Hc as [_ Hc].
  rewrite (eval_fields_ok en te vals _ fs Ht); auto.
  2: { intros x fd Hx Hfd Hty. pose proof Hx as Hx'. rewrite !in_app_iff, !in_map_iff in Hx'.
       destruct Hx' as [(p & Hp & Hpin)|[(p & Hp & _)|(p & Hp & _)]]; try discriminate.
       injection Hp as <-. apply (Hr' p Hin Hpin). rewrite <- Hty.
       eapply ret_uses_field; eauto. }
  unfold route_of. rewrite !map_app, !map_map. reflexivity.
Qed.

Lemma dispatch_exec fuel en te vals fr :
  tenv_inv te en vals -> uncaught fr ->
  forall rs d, incl rs (f_resources fr) ->
  check_arms senv te
    (map (fun r => (AHInline (method_display (r_method r)), [SReturn (resource_ret fr r)])) rs
     ++ [(AHWild, [SReturn RetNotAllowed])]) = Some d ->
  exec_arms rt senv fuel en method
    (map (fun r => (AHInline (method_display (r_method r)), [SReturn (resource_ret fr r)])) rs
     ++ [(AHWild, [SReturn RetNotAllowed])])
  = out match find (fun r => str_eqb method (method_display (r_method r))) rs with
        | Some r =>
            RunResult (if r_is_redirect r then MRedirect (route_of fr r vals)
                       else MRoute (route_of fr r vals))
        | None => RunResult MNotAllowed
        end.
Proof.
  intros Ht Hr. induction rs as [|r rs IH]; intros d Hi Hc; [reflexivity|].
  cbn [map app check_arms check_arm] in Hc. cbn [map app exec_arms find arm_matches].
  destruct (plain_lit (method_display (r_method r))); [|discriminate].
  cbn [check_block check_stmt] in Hc.
  destruct (check_ret senv te (resource_ret fr r)) eqn:Ec; [|discriminate].
  destruct (str_eqb method (method_display (r_method r))).
  - cbn [exec_block exec_stmt].
    rewrite (check_ret_eval en te vals fr r Ht Hr (Hi r (or_introl eq_refl)) Ec). destruct (r_is_redirect r); reflexivity.
  - destruct (check_arms senv te _) as [d2|]; [|discriminate].
    eapply IH; [|reflexivity]. intros y Hy. apply Hi. right. exact Hy.
Qed.

Lemma methods_stmt_exec fuel en i te te' d vals fr rest :
  env_inv en i -> tenv_inv te en vals ->
  uncaught fr ->
  check_stmt senv te (methods_stmt fr) rest = Some (te', d) ->
  te' = te /\
  exec_stmt rt senv fuel en (methods_stmt fr) rest =
  match skipn i path with
  | [] => out (dispatch method fr vals)
  | _ => ONext en
  end.
Proof.
  intros He Ht Hr Hc. unfold methods_stmt in *.
  rewrite check_stmt_if in Hc. rewrite exec_stmt_if, (i_eq_len_eval en i He).
  destruct (check_bexpr te i_eq_len); [|discriminate].
  cbn [check_block] in Hc. rewrite check_stmt_match in Hc.
  destruct (check_scrut te (ScVar s_method)) eqn:Em; [|discriminate]. cbn [check_scrut] in Em.
  destruct (lookup s_method te) as [[m [| | |]]|] eqn:El; try discriminate.
  destruct (existsb _ _); [|discriminate]. cbn [andb] in Hc.
  destruct (check_arms senv te _) as [d'|] eqn:Ea; [|discriminate].
  injection Hc as <- _. split; auto.
  destruct (skipn i path); auto.
  cbn [exec_block]. rewrite exec_stmt_match. unfold eval_scrut.
  rewrite (ti_method _ _ _ Ht m El).
  rewrite (dispatch_exec fuel en te vals fr Ht Hr _ _ (incl_refl _) Ea).
  unfold dispatch. destruct (find _ _); reflexivity.
Qed.

(** ** Literals *)
Lemma plain_lit_ascii t : plain_lit t = true -> Forall (fun c => (c < 128)%N) t.
Proof.
  unfold plain_lit. rewrite forallb_forall, Forall_forall.
  intros H c Hc. specialize (H c Hc). unfold plain_byte_char in H.
  rewrite !andb_true_iff in H. apply N.ltb_lt. tauto.
Qed.
Lemma plain_byte_len t : plain_lit t = true -> byte_len t = length t.
Proof. intros H. unfold byte_len. rewrite utf8_ascii; auto. apply plain_lit_ascii, H. Qed.

Lemma firstn_eqb_prefix u rest :
  (length u <=? length rest)%nat && str_eqb (firstn (length u) rest) u = is_prefix u rest.
Proof.
  revert rest. induction u as [|c u IH]; intros [|b rest]; auto.
  simpl firstn. simpl str_eqb. simpl is_prefix. rewrite <- IH. simpl length.
  simpl Nat.leb. rewrite (N.eqb_sym c b).
  destruct (length u <=? length rest)%nat, (N.eqb b c), (str_eqb (firstn (length u) rest) u); reflexivity.
Qed.

(** [match &path[i..i+n] { b"u" => { i += n; }, _ => return NotFound }], once a
    slice of length [n] is available. *)
Lemma expect_exec fuel en i n u rest :
  env_inv en i -> n <= length (skipn i path) ->
  (str_eqb (firstn n (skipn i path)) u = true /\
   exists en', exec_stmt rt senv fuel en (expect n u) rest = ONext en' /\ env_inv en' (i + n) /\
     forall y, y <> s_i -> lookup y en' = lookup y en) \/
  (str_eqb (firstn n (skipn i path)) u = false /\
   exec_stmt rt senv fuel en (expect n u) rest = ORet MNotFound).
Proof.
  intros He Hn. unfold expect. rewrite exec_stmt_match, (path_slice_eval en i n He).
  apply Nat.leb_le in Hn. rewrite Hn. apply Nat.leb_le in Hn.
  cbn [exec_arms arm_matches].
  destruct (str_eqb (firstn n (skipn i path)) u); [left|right; auto].
  split; auto.
  rewrite skipn_length in Hn. pose proof (ei_le _ _ He).
  destruct (add_i en i n He ltac:(lia)) as (en' & Ha & Hl & He' & Ho).
  exists en'. split; auto. cbn [exec_block exec_stmt]. rewrite Ha, leave_same; auto.
Qed.

Lemma skipn_skipn' {A} a b (l : list A) : skipn b (skipn a l) = skipn (a + b) l.
Proof.
  revert l. induction a as [|a IH]; intros l; simpl; auto.
  destruct l; [rewrite skipn_nil; reflexivity|]. apply IH.
Qed.

(** ** The loop over a segment *)
Definition seg_cond : bexpr :=
  BAnd (BLt (EVar s_i) (EVar s_len)) (BSliceNe s_path (EVar s_i) (EPlus s_i 1) (lit "/")).

Lemma seg_cond_eval en i :
  env_inv en i ->
  eval_bexpr rt en seg_cond =
  Some (Some (match skipn i path with [] => false | b :: _ => negb (N.eqb b c_slash) end)).
Proof.
  intros H. unfold seg_cond, eval_bexpr, cmp_expr, eval_slice, eval_expr, get_usize.
  rewrite (ei_len _ _ H), (ei_i _ _ H), (ei_path _ _ H).
  pose proof (ei_le _ _ H). pose proof (skipn_length i path) as Hs.
  destruct (Nat.ltb_spec i (length path)) as [Hlt|Hge].
  - unfold slice.
    rewrite (leb_correct i (i + 1)), (leb_correct (i + 1)) by lia.
    cbn [andb]. replace (i + 1 - i) with 1 by lia.
    destruct (skipn i path) as [|b l]; [simpl in Hs; lia|].
    destruct l; cbn -[N.eqb]; rewrite andb_true_r; reflexivity.
  - rewrite skipn_all2 by lia. reflexivity.
Qed.

Lemma seg_loop fuel k : forall en i,
  env_inv en i -> length path - i < k ->
  exists en', exec_loop rt senv fuel seg_cond [SAdd s_i 1] k en = ONext en' /\
    env_inv en' (i + length (fst (span_segment (skipn i path)))) /\
    (forall y, y <> s_i -> lookup y en' = lookup y en) /\
    snd (span_segment (skipn i path)) =
      skipn (i + length (fst (span_segment (skipn i path)))) path.
Proof.
  induction k as [|k IH]; intros en i He Hk; [lia|].
  cbn [exec_loop]. rewrite (seg_cond_eval en i He).
  pose proof (ei_le _ _ He) as Hle. pose proof (skipn_length i path) as Hs.
  destruct (skipn i path) as [|b l] eqn:El; cbn [span_segment].
  - exists en. cbn [fst snd length]. rewrite Nat.add_0_r. auto.
  - destruct (N.eqb b c_slash); cbn [negb].
    + exists en. cbn [fst snd length]. rewrite Nat.add_0_r, El. auto.
    + simpl in Hs.
      destruct (add_i en i 1 He ltac:(lia)) as (en1 & Ha & Hl & He1 & Ho).
      cbn [exec_block exec_stmt]. rewrite Ha, (leave_same _ _ Hl).
      destruct (IH en1 (i + 1) He1 ltac:(lia)) as (en2 & Hx & He2 & Ho2 & Hsn).
      assert (El' : skipn (i + 1) path = l) by (rewrite <- skipn_skipn', El; reflexivity).
      rewrite El' in *. destruct (span_segment l) as [s r]. cbn [fst snd length] in *.
      exists en2. split; auto. replace (i + S (length s)) with (i + 1 + length s) by lia.
      split; auto. split; auto. intros y Hy. rewrite Ho2, Ho; auto.
Qed.
Lemma span_segment_firstn l : fst (span_segment l) = firstn (length (fst (span_segment l))) l.
Proof.
  induction l as [|b l IH]; auto. simpl. destruct (N.eqb b c_slash); auto.
  destruct (span_segment l) as [s r]. simpl in *. congruence.
Qed.

(** ** Conditions on the trie *)
Record trie_good (t : ctrie) : Prop := {
  tg_names : forall t' n c, subtrie t' t -> In (CDynamic n, c) (t_children t') ->
      tyf c = s_usize -> ~ In n counters;
  tg_data : forall t' fr, subtrie t' t -> t_data t' = Some fr -> uncaught fr;
  tg_types : forall t' n c t'' fr r u, subtrie t' t -> In (CDynamic n, c) (t_children t') ->
      subtrie t'' c -> t_data t'' = Some fr -> In r (f_resources fr) ->
      In u (ret_uses senv n (resource_ret fr r)) -> u = tyf c
}.
Lemma trie_good_sub t s : subtrie s t -> trie_good t -> trie_good s.
Proof.
  intros Hs [H1 H2 H3]. split.
  - intros t' n c Ht'. apply (H1 t' n c). eapply subtrie_trans; eauto.
  - intros t' fr Ht'. apply (H2 t' fr). eapply subtrie_trans; eauto.
  - intros t' n c t'' fr r u Ht'. apply (H3 t' n c t'' fr r u). eapply subtrie_trans; eauto.
Qed.

(** Every struct literal of the program comes from the data of a sub-trie. *)
Definition data_use (x : str) (t : ctrie) (u : str) : Prop :=
  exists t' fr r, subtrie t' t /\ t_data t' = Some fr /\ In r (f_resources fr) /\
                  In u (ret_uses senv x (resource_ret fr r)).
Lemma data_use_sub x t s u : subtrie s t -> data_use x s u -> data_use x t u.
Proof.
  intros Hs (t' & fr & r & H). exists t', fr, r. intuition. eapply subtrie_trans; eauto.
Qed.
Lemma has_resources_data o fr : has_resources o = Some fr -> o = Some fr.
Proof.
  destruct o as [fr'|]; [|discriminate]. simpl. destruct (f_resources fr'); [discriminate|].
  intros [= ->]; reflexivity.
Qed.
Lemma methods_stmt_uses x t fr u :
  has_resources (t_data t) = Some fr ->
  In u (stmt_uses senv x (methods_stmt fr)) -> data_use x t u.
Proof.
  intros Hd. apply has_resources_data in Hd. unfold methods_stmt.
  rewrite stmt_uses_if. cbn [block_uses]. rewrite app_nil_r, stmt_uses_match.
  rewrite map_app, concat_app, in_app_iff, map_map. intros [Hin|[]].
  apply in_concat in Hin. destruct Hin as (l & Hl & Hu). apply in_map_iff in Hl.
  destruct Hl as (r & <- & Hr). cbn [snd] in Hu. rewrite block_uses_cons in Hu.
  cbn [binds block_uses stmt_uses] in Hu. rewrite app_nil_r in Hu.
  exists t, fr, r. split; [apply sub_refl|]. auto.
Qed.

Lemma gen_dynamic_inv rec child name b :
  gen_dynamic rec child name = ROk b -> exists b', rec child = ROk b' /\ b = dynamic_block name b'.
Proof.
  unfold gen_dynamic. destruct (t_children child) as [|[[ch|nm|] c] [|? ?]]; try discriminate.
  destruct (rec child); try discriminate. intros [= <-]. eauto.
Qed.
Lemma dynamic_block_uses x name b u :
  In u (block_uses senv x (dynamic_block name b)) -> In u (block_uses senv x b).
Proof.
  unfold dynamic_block. intros H.
  apply block_uses_app in H. destruct H as [H|H]; auto.
  repeat (apply block_uses_cons_in in H; destruct H as [[]|H]). destruct H.
Qed.

Lemma gen_trie_uses x fuel : forall t b u,
  gen_trie fuel t = ROk b -> In u (block_uses senv x b) -> data_use x t u.
Proof.
  induction fuel as [|fuel IH]; intros t b u; [discriminate|].
  cbn [gen_trie]. destruct (gen_children (gen_trie fuel) t) as [b0| | |] eqn:Eg; try discriminate.
  intros [= <-] Hu. apply block_uses_app in Hu. destruct Hu as [Hu|Hu].
  { unfold methods_block in Hu. destruct (has_resources (t_data t)) eqn:Er; [|destruct Hu].
    cbn [block_uses] in Hu. rewrite app_nil_r in Hu. eapply methods_stmt_uses; eauto. }
  assert (Hrec : forall s b u, subtrie s t -> gen_trie fuel s = ROk b ->
                 In u (block_uses senv x b) -> data_use x t u).
  { intros s b' u' Hs Hg Hu'. eapply data_use_sub; [exact Hs|]. eapply IH; eauto. }
  assert (Hdyn : forall c n b u, In (CDynamic n, c) (t_children t) ->
                 gen_dynamic (gen_trie fuel) c n = ROk b ->
                 In u (block_uses senv x b) -> data_use x t u).
  { intros c n b' u' Hin Hg Hu'. apply gen_dynamic_inv in Hg. destruct Hg as (b'' & Hg & ->).
    apply dynamic_block_uses in Hu'. eapply Hrec; eauto. eapply subtrie_child; eauto. }
  assert (Hmany : gen_many (gen_trie fuel) t = ROk b0 -> data_use x t u).
  { unfold gen_many. pose proof (unamb_sub (trie_height t) t ltac:(lia)) as Hsub.
    destruct (unamb t) as [[un l] next]. cbv zeta. cbn [snd] in Hsub.
    destruct un as [|uc un].
    - destruct (gen_arms (gen_trie fuel) (t_children t)) as [arms| | |] eqn:Ea; try discriminate.
      intros [= <-]. apply block_uses_app in Hu. destruct Hu as [Hu|Hu].
      { destruct (find_dynamic (t_children t)); [|destruct Hu].
        repeat (apply block_uses_cons_in in Hu; destruct Hu as [[]|Hu]). destruct Hu. }
      apply block_uses_cons_in in Hu. destruct Hu as [Hu|Hu]; [destruct Hu|].
      cbn [block_uses] in Hu. rewrite app_nil_r, stmt_uses_match, map_app, concat_app in Hu.
      rewrite in_app_iff in Hu. destruct Hu as [Hu|[]].
      clear Eg. assert (Hincl : forall kc, In kc (t_children t) -> In kc (t_children t)) by auto.
      revert Hincl arms Ea Hu. generalize (t_children t) at 1 3 as ch.
      induction ch as [|[[c|n|] child] ch IHch]; intros Hincl arms Ea Hu; cbn [gen_arms] in Ea.
      + injection Ea as <-. destruct Hu.
      + destruct (gen_trie fuel child) as [b'| | |] eqn:Eb; try discriminate.
        destruct (gen_arms (gen_trie fuel) ch) as [arms'| | |]; try discriminate.
        injection Ea as <-. cbn [map concat snd] in Hu. apply in_app_iff in Hu.
        destruct Hu as [Hu|Hu].
        * apply block_uses_cons_in in Hu. destruct Hu as [[]|Hu].
          eapply Hrec; [|exact Eb|exact Hu]. eapply subtrie_child. apply Hincl. left; reflexivity.
        * eapply IHch; [|reflexivity|exact Hu]. intros; apply Hincl; right; auto.
      + destruct (gen_dynamic (gen_trie fuel) child n) as [b'| | |] eqn:Eb; try discriminate.
        injection Ea as <-. cbn [map concat snd] in Hu. rewrite app_nil_r in Hu.
        eapply Hdyn; [|exact Eb|exact Hu]. apply Hincl; left; reflexivity.
      + destruct (gen_arms (gen_trie fuel) ch) as [arms'| | |]; try discriminate.
        injection Ea as <-. cbn [map concat snd] in Hu.
        eapply IHch; [|reflexivity|exact Hu]. intros; apply Hincl; right; auto.
    - destruct (find_dynamic (t_children t)) as [[name dchild]|] eqn:Ed; [|discriminate].
      destruct (gen_trie fuel next) as [b1| | |] eqn:E1; try discriminate.
      destruct (gen_dynamic (gen_trie fuel) dchild name) as [b2| | |] eqn:E2; try discriminate.
      intros [= <-].
      do 3 (apply block_uses_cons_in in Hu; destruct Hu as [[]|Hu]).
      apply block_uses_cons_in in Hu. destruct Hu as [Hu|Hu].
      + rewrite stmt_uses_if in Hu. cbn [block_uses] in Hu.
        rewrite app_nil_r, stmt_uses_match in Hu. cbn [map concat snd] in Hu.
        cbn [block_uses] in Hu. rewrite !app_nil_r in Hu.
        apply block_uses_cons_in in Hu. destruct Hu as [[]|Hu].
        eapply Hrec; eauto.
      + eapply Hdyn; eauto. apply find_dynamic_in; auto. }
  unfold gen_children in Eg.
  destruct (t_children t) as [|[[ch|nm|] child] [|x2 l2]] eqn:Ech; try (apply Hmany; exact Eg).
  - injection Eg as <-. destruct Hu.
  - assert (Hs : subtrie (snd (chase child)) t).
    { eapply sub_step; [rewrite Ech; left; reflexivity|]. apply (chase_sub (trie_height child)); lia. }
    destruct (chase child) as [more child']. cbn [snd] in Hs.
    destruct (gen_trie fuel child') as [b'| | |] eqn:Eb; try discriminate.
    injection Eg as <-. apply block_uses_cons_in in Hu. destruct Hu as [[]|Hu].
    apply block_uses_cons_in in Hu. destruct Hu as [[]|Hu]. eapply Hrec; eauto.
  - destruct (gen_dynamic (gen_trie fuel) child nm) as [b'| | |] eqn:Eb; try discriminate.
    injection Eg as <-. apply block_uses_cons_in in Hu. destruct Hu as [[]|Hu].
    eapply Hdyn; eauto. left; reflexivity.
  - destruct (gen_trie fuel child) as [b'| | |] eqn:Eb; try discriminate.
    injection Eg as <-.
    assert (Hs : subtrie child t) by (eapply subtrie_child; rewrite Ech; left; reflexivity).
    apply block_uses_cons_in in Hu. destruct Hu as [Hu|Hu].
    { destruct (has_resources (t_data child)) eqn:Er; [|destruct Hu].
      eapply data_use_sub; [exact Hs|]. eapply methods_stmt_uses; eauto. }
    apply block_uses_cons_in in Hu. destruct Hu as [[]|Hu]. eapply Hrec; eauto.
Qed.

(** ** The main lemma *)
Variable F : nat.                                         (* loop fuel *)
Hypothesis F_enough : length path < F.

Definition exec_ok (fuel : nat) (t : ctrie) (b : list stmt) : Prop :=
  forall te en i vals d0 d,
  check_block senv te b d0 = Some d -> env_inv en i -> tenv_inv te en vals ->
  exec_block rt senv F en b = out (trie_run rt method tyf fuel t vals (skipn i path)).

Lemma infer_in x rest t : infer senv x rest = Some t -> In t (block_uses senv x rest).
Proof.
  unfold infer. destruct (block_uses senv x rest) as [|u us]; [discriminate|].
  destruct (forallb (str_eqb u) us); [|discriminate]. intros [= ->]. left; reflexivity.
Qed.

Lemma gen_dynamic_sep rec child name b :
  gen_dynamic rec child name = ROk b -> exists c, t_children child = [(CSeparator, c)].
Proof.
  unfold gen_dynamic. destruct (t_children child) as [|[[ch|nm|] c] [|? ?]]; try discriminate. eauto.
Qed.
Lemma check_expect_vars te n u l d0 d :
  check_block senv te (expect n u :: l) d0 = Some d ->
  lookup s_i te = Some (true, TUsize) /\ exists m, lookup s_path te = Some (m, TBytes).
Proof.
  unfold expect. rewrite check_block_cons, check_stmt_match.
  destruct (check_scrut te (path_slice n)) eqn:Ep; [|discriminate].
  destruct (existsb _ _); [|discriminate]. cbn [andb check_arms check_arm].
  destruct (plain_lit u); [|discriminate].
  destruct (check_block senv te [SAdd s_i n] false) eqn:Ei; [|discriminate]. intros _.
  cbn [check_block check_stmt] in Ei. unfold path_slice, check_scrut, check_slice in Ep.
  destruct (lookup s_path te) as [[m [| | |]]|]; try discriminate.
  destruct (lookup s_i te) as [[[|] [| | |]]|]; try discriminate. eauto.
Qed.
Lemma check_i_eq_len te : check_bexpr te i_eq_len = true ->
  exists m t, lookup s_len te = Some (m, t) /\ is_usize t = true.
Proof.
  unfold i_eq_len. cbn [check_bexpr check_expr]. rewrite andb_true_iff. intros [_ H].
  destruct (lookup s_len te) as [[m t]|]; [|discriminate]. eauto.
Qed.
(** After a parameter the program compares [i] with [len], reads from [path]
    and advances [i]. *)
Lemma after_dynamic fuel child c b te d0 d :
  t_children child = [(CSeparator, c)] -> gen_trie fuel child = ROk b ->
  check_block senv te b d0 = Some d ->
  lookup s_i te = Some (true, TUsize) /\ (exists m, lookup s_path te = Some (m, TBytes)) /\
  exists m t, lookup s_len te = Some (m, t) /\ is_usize t = true.
Proof.
  destruct fuel as [|fuel]; [discriminate|]. cbn [gen_trie]. unfold gen_children. intros ->.
  destruct (gen_trie fuel c) as [b'| | |]; try discriminate. intros [= <-]. intros H.
  assert (Hm : forall fr l d0, check_block senv te (methods_stmt fr :: l) d0 = Some d ->
    check_bexpr te i_eq_len = true /\ exists d1, check_block senv te l d1 = Some d).
  { intros fr l d1. rewrite check_block_cons. unfold methods_stmt. rewrite check_stmt_if.
    destruct (check_bexpr te i_eq_len); [|discriminate].
    destruct (check_block senv te _ false); [|discriminate]. eauto. }
  assert (H' : exists d0, check_block senv te
     ((match has_resources (t_data c) with Some route => methods_stmt route | None => SIf i_eq_len [not_found] end)
          :: expect 1 (lit "/") :: b') d0 = Some d).
  { unfold methods_block in H. destruct (has_resources (t_data child)); cbn [app] in H; [|eauto].
    apply Hm in H. destruct H as [_ H]. exact H. }
  clear H. destruct H' as [d1 H].
  assert (H' : check_bexpr te i_eq_len = true /\ exists d1, check_block senv te (expect 1 (lit "/") :: b') d1 = Some d).
  { destruct (has_resources (t_data c)); [apply (Hm _ _ _ H)|].
    rewrite check_block_cons, check_stmt_if in H.
    destruct (check_bexpr te i_eq_len); [|discriminate].
    destruct (check_block senv te [not_found] false); [|discriminate]. eauto. }
  destruct H' as [Hl [d2 He]]. apply check_expect_vars in He. destruct He as [Hi Hp].
  split; [exact Hi|]. split; [exact Hp|]. apply check_i_eq_len. exact Hl.
Qed.

Lemma dynamic_exec fuel t child name b te en i vals d0 d :
  trie_good t -> In (CDynamic name, child) (t_children t) ->
  (exists c, t_children child = [(CSeparator, c)]) ->
  gen_trie fuel child = ROk b -> exec_ok fuel child b ->
  lookup s_start en = Some (false, VUsize i) ->
  check_block senv te (dynamic_block name b) d0 = Some d ->
  env_inv en i -> tenv_inv te en vals ->
  exec_block rt senv F en (dynamic_block name b) =
  out (run_dynamic rt tyf (trie_run rt method tyf fuel) child name vals (skipn i path)).
Proof.
  intros Hg Hin [c Hsep] Hb Hok Hst Hc He Ht.
  unfold dynamic_block in *. cbn [app] in *.
  rewrite check_block_cons in Hc. cbn [check_stmt] in Hc.
  rewrite check_block_cons in Hc. rewrite check_stmt_while in Hc.
  destruct (check_bexpr te _); [|discriminate].
  destruct (check_block senv te [SAdd s_i 1] false); [|discriminate].
  rewrite check_block_cons in Hc. cbn [check_stmt] in Hc.
  rewrite check_block_cons in Hc. cbn [check_stmt] in Hc.
  destruct (check_slice te s_path (EVar s_start) (EVar s_i) && _); [|discriminate].
  rewrite check_block_cons in Hc. cbn [check_stmt] in Hc.
  rewrite lookup_cons_eq in Hc.
  destruct (infer senv name (SBlank :: b)) as [ty0|] eqn:Einf; [|discriminate].
  destruct (no_variable senv name); [discriminate|].
  assert (Hty : ty0 = tyf child).
  { apply infer_in in Einf. apply block_uses_cons_in in Einf. destruct Einf as [[]|Einf].
    destruct (gen_trie_uses _ _ _ _ _ Hb Einf) as (t' & fr & r & Hs & Hd & Hr & Hu).
    eapply (tg_types t Hg); [apply sub_refl | exact Hin | exact Hs | exact Hd | exact Hr | exact Hu]. }
  subst ty0. rewrite check_block_cons in Hc. cbn [check_stmt] in Hc.
  assert (Hnames : name <> s_i /\ name <> s_len /\ name <> s_path).
  { destruct (after_dynamic _ _ _ _ _ _ _ Hsep Hb Hc) as (Hi & (m & Hp) & ml & tl & Hl & Hu).
    split; [|split]; intros ->; rewrite lookup_cons_eq in *; try discriminate.
    injection Hl as <- <-. cbn [is_usize] in Hu. apply str_eqb_eq in Hu.
    apply (tg_names t Hg t s_len child (sub_refl _) Hin Hu). simpl. tauto. }
  destruct Hnames as (Ni & Nl & Np).
  rewrite exec_block_cons. cbn [exec_stmt].
  rewrite exec_block_cons, exec_stmt_while. fold seg_cond.
  destruct (seg_loop F F en i He ltac:(lia)) as (en1 & -> & He1 & Ho & Hsn).
  rewrite exec_block_cons. cbn [exec_stmt].
  rewrite exec_block_cons. cbn [exec_stmt].
  pose proof (span_segment_firstn (skipn i path)) as Hseg.
  unfold run_dynamic. destruct (span_segment (skipn i path)) as [seg rest'] eqn:Esp.
  cbn [fst snd] in *.
  assert (Hsl : eval_slice rt en1 s_path (EVar s_start) (EVar s_i) = Some (Some seg)).
  { unfold eval_slice, eval_expr, get_usize.
    rewrite (ei_path _ _ He1), (ei_i _ _ He1), Ho by neq. rewrite Hst. unfold slice.
    pose proof (ei_le _ _ He1). rewrite (leb_correct i) by lia.
    rewrite leb_correct by lia. cbn [andb].
    replace (i + length seg - i) with (length seg) by lia.
    do 2 f_equal. symmetry. exact Hseg. }
  rewrite Hsl. destruct (utf8_valid seg); [|reflexivity].
  rewrite exec_block_cons. cbn [exec_stmt]. rewrite lookup_cons_eq, Einf.
  destruct (rt_parse rt (tyf child) seg) as [v|e]; [|reflexivity].
  rewrite exec_block_cons. cbn [exec_stmt].
  rewrite Hsn. eapply Hok; [exact Hc| |].
  - apply env_inv_bind; auto. apply env_inv_temp; auto. left; reflexivity.
  - apply tenv_inv_val; auto. apply tenv_inv_text. eapply tenv_inv_same; eauto.
Qed.

Lemma check_if_notfound te c l d0 d :
  check_block senv te (SIf c [not_found] :: l) d0 = Some d ->
  check_block senv te l d0 = Some d.
Proof.
  rewrite check_block_cons, check_stmt_if.
  destruct (check_bexpr te c); [|discriminate].
  destruct (check_block senv te [not_found] false); [|discriminate].
  rewrite orb_false_r. auto.
Qed.
Lemma check_expect te n u l d0 d :
  check_block senv te (expect n u :: l) d0 = Some d ->
  plain_lit u = true /\ exists d1, check_block senv te l d1 = Some d.
Proof.
  unfold expect. rewrite check_block_cons, check_stmt_match.
  destruct (check_scrut te (path_slice n) && _); [|discriminate].
  cbn [check_arms check_arm]. destruct (plain_lit u); [|discriminate].
  destruct (check_block senv te [SAdd s_i n] false); [|discriminate].
  destruct (check_block senv te [not_found] false); [|discriminate].
  intros H. split; [reflexivity|]. eexists; exact H.
Qed.

(** The arms for static children. *)
Lemma arms_exec fuel te en i vals b rest' :
  env_inv en i -> tenv_inv te en vals -> skipn i path = b :: rest' ->
  forall ch arms d,
  (forall k c, In (k, c) ch -> forall bb, gen_trie fuel c = ROk bb -> exec_ok fuel c bb) ->
  gen_arms (gen_trie fuel) ch = ROk arms ->
  check_arms senv te (arms ++ [(AHWild, [not_found])]) = Some d ->
  exec_arms rt senv F en [b] (arms ++ [(AHWild, [not_found])]) =
  out match find_static b ch with
      | Some child => trie_run rt method tyf fuel child vals rest'
      | None => RunResult MNotFound
      end.
Proof.
  intros He Ht Hsk. induction ch as [|[[c|n|] child] ch IH]; intros arms d Hrec Hg Hc;
    cbn [gen_arms] in Hg.
  - injection Hg as <-. reflexivity.
  - destruct (gen_trie fuel child) as [b'| | |] eqn:Eb; try discriminate.
    destruct (gen_arms (gen_trie fuel) ch) as [arms'| | |]; try discriminate.
    injection Hg as <-. cbn [app check_arms check_arm] in Hc.
    destruct (plain_lit [c]); [|discriminate].
    destruct (check_block senv te (SAdd s_i 1 :: b') false) eqn:Ec; [|discriminate].
    destruct (check_arms senv te (arms' ++ _)) eqn:Ec2; [|discriminate].
    cbn [app exec_arms arm_matches find_static str_eqb]. rewrite andb_true_r.
    destruct (N.eqb b c).
    + pose proof (skipn_length i path) as Hl. rewrite Hsk in Hl. simpl in Hl.
      destruct (add_i en i 1 He ltac:(lia)) as (en' & Ha & _ & He' & Ho).
      rewrite exec_block_cons. cbn [exec_stmt]. rewrite Ha.
      rewrite check_block_cons in Ec. cbn [check_stmt] in Ec. rewrite (ti_i _ _ _ Ht) in Ec.
      rewrite (Hrec _ _ (or_introl eq_refl) _ Eb _ _ _ _ _ _ Ec He' (tenv_inv_same _ _ _ _ Ho Ht)).
      rewrite <- skipn_skipn', Hsk. cbn [skipn].
      destruct (trie_run _ _ _ _ _ _ _); reflexivity.
    + eapply IH; [|reflexivity|exact Ec2]. intros k c' Hin. apply (Hrec k c'). right; exact Hin.
  - destruct (gen_dynamic (gen_trie fuel) child n) as [b'| | |]; try discriminate.
    injection Hg as <-. discriminate.
  - destruct (gen_arms (gen_trie fuel) ch) as [arms'| | |]; try discriminate.
    injection Hg as <-. discriminate.
Qed.

Lemma exec_gen_trie fuel : forall t b,
  trie_good t -> gen_trie fuel t = ROk b -> exec_ok fuel t b.
Proof.
  induction fuel as [|fuel IH]; intros t b Hgood; [discriminate|].
  cbn [gen_trie]. destruct (gen_children (gen_trie fuel) t) as [b0| | |] eqn:Eg; try discriminate.
  intros [= <-].
  assert (Hrec : forall s b, subtrie s t -> gen_trie fuel s = ROk b -> exec_ok fuel s b).
  { intros s b Hs Hg. apply IH; auto. eapply trie_good_sub; eauto. }
  assert (Hchildren : forall te en i vals d0 d,
    check_block senv te b0 d0 = Some d -> env_inv en i -> tenv_inv te en vals ->
    exec_block rt senv F en b0 =
    out (run_children rt method tyf (trie_run rt method tyf fuel) t vals (skipn i path))).
  2: { intros te en i vals d0 d Hc He Ht. cbn [trie_run]. unfold methods_block in *.
    destruct (has_resources (t_data t)) as [fr|] eqn:Er.
    - cbn [app] in *. rewrite check_block_cons in Hc.
      destruct (check_stmt senv te (methods_stmt fr) b0) as [[te' d']|] eqn:Ec; [|discriminate].
      assert (Hp : uncaught fr).
      { eapply (tg_data t Hgood); [apply sub_refl|]. apply has_resources_data; auto. }
      destruct (methods_stmt_exec F en i te te' d' vals fr b0 He Ht Hp Ec) as [-> Hx].
      rewrite exec_block_cons, Hx.
      pose proof (Hchildren te en i vals _ _ Hc He Ht) as Hch.
      destruct (skipn i path); [|exact Hch].
      destruct (dispatch method fr vals); reflexivity.
    - cbn [app] in *. pose proof (Hchildren te en i vals _ _ Hc He Ht) as Hch.
      destruct (skipn i path); exact Hch. }
  intros te en i vals d0 d Hc He Ht.
  pose proof (ei_le _ _ He) as Hle. pose proof (skipn_length i path) as Hlen.
  assert (Hmany : gen_many (gen_trie fuel) t = ROk b0 ->
    exec_block rt senv F en b0 =
    out (run_many rt tyf (trie_run rt method tyf fuel) t vals (skipn i path))).
  { unfold gen_many, run_many. pose proof (unamb_sub (trie_height t) t ltac:(lia)) as Hsub.
    destruct (unamb t) as [[un l] next]. cbv zeta. cbn [snd] in Hsub.
    remember (if (l =? 0)%nat then 1 else l) as n eqn:En.
    assert (Hn1 : 1 <= n) by (destruct (Nat.eqb_spec l 0); lia). clear En.
    destruct un as [|uc un].
    - destruct (gen_arms (gen_trie fuel) (t_children t)) as [arms| | |] eqn:Ea; try discriminate.
      intros [= <-].
      assert (Hst : exists te1 en1 d1,
        check_block senv te1 [SIf i_eq_len [not_found];
               SMatch (path_slice 1) (arms ++ [(AHWild, [not_found])])] d1 = Some d /\
        env_inv en1 i /\ tenv_inv te1 en1 vals /\
        exec_block rt senv F en (match find_dynamic (t_children t) with
          | Some _ => [SBlank; SLet s_start (EVar s_i); SBlank]
          | None => [] end ++ [SIf i_eq_len [not_found];
               SMatch (path_slice 1) (arms ++ [(AHWild, [not_found])])]) =
        exec_block rt senv F en1 [SIf i_eq_len [not_found];
               SMatch (path_slice 1) (arms ++ [(AHWild, [not_found])])]).
      { destruct (find_dynamic (t_children t)); cbn [app] in *.
        - rewrite check_block_cons in Hc. cbn [check_stmt] in Hc.
          rewrite check_block_cons in Hc. cbn [check_stmt check_expr] in Hc.
          rewrite (ti_i _ _ _ Ht) in Hc. cbn [is_usize andb] in Hc. destruct (negb (no_variable senv s_start)); [|discriminate].
          rewrite check_block_cons in Hc. cbn [check_stmt] in Hc.
          exists ((s_start, (false, TUsize)) :: te), ((s_start, (false, VUsize i)) :: en).
          eexists. split; [exact Hc|].
          split; [apply env_inv_temp; auto; right; left; reflexivity|].
          split; [apply tenv_inv_start; exact Ht|].
          rewrite exec_block_cons. cbn [exec_stmt].
          rewrite exec_block_cons. cbn [exec_stmt eval_expr]. unfold get_usize.
          rewrite (ei_i _ _ He). reflexivity.
        - exists te, en, d0. auto. }
      destruct Hst as (te1 & en1 & d1 & Hc1 & He1 & Ht1 & ->). clear Hc He Ht.
      apply check_if_notfound in Hc1. rewrite check_block_cons, check_stmt_match in Hc1.
      destruct (check_scrut te1 _ && _); [|discriminate].
      destruct (check_arms senv te1 _) as [d2|] eqn:Ec; [|discriminate].
      rewrite exec_block_cons, exec_stmt_if, (i_eq_len_eval _ _ He1).
      destruct (skipn i path) as [|b rest'] eqn:Esk; [reflexivity|].
      rewrite exec_block_cons, exec_stmt_match, (path_slice_eval _ _ _ He1), Esk.
      cbn [length Nat.leb firstn].
      rewrite (arms_exec fuel te1 en1 i vals b rest' He1 Ht1 Esk _ _ _
                 (fun k c Hin bb Hb => Hrec c bb (subtrie_child _ _ _ Hin) Hb) Ea Ec).
      destruct (find_static b (t_children t)); [|reflexivity].
      destruct (trie_run _ _ _ _ _ _ _); reflexivity.
    - destruct (find_dynamic (t_children t)) as [[name dchild]|] eqn:Ed; [|discriminate].
      apply find_dynamic_in in Ed.
      destruct (gen_trie fuel next) as [b1| | |] eqn:E1; try discriminate.
      destruct (gen_dynamic (gen_trie fuel) dchild name) as [b2| | |] eqn:E2; try discriminate.
      intros [= <-]. pose proof (gen_dynamic_sep _ _ _ _ E2) as Hsep.
      apply gen_dynamic_inv in E2. destruct E2 as (b' & Eb' & ->).
      cbn [rbind app] in Hc.
      rewrite check_block_cons in Hc. cbn [check_stmt] in Hc.
      rewrite check_block_cons in Hc. cbn [check_stmt check_expr] in Hc.
      rewrite (ti_i _ _ _ Ht) in Hc. cbn [is_usize andb] in Hc. destruct (negb (no_variable senv s_start)); [|discriminate].
      rewrite check_block_cons in Hc. cbn [check_stmt] in Hc.
      cbn [app]. rewrite exec_block_cons. cbn [exec_stmt].
      rewrite exec_block_cons. cbn [exec_stmt eval_expr]. unfold get_usize.
      rewrite (ei_i _ _ He). rewrite exec_block_cons. cbn [exec_stmt].
      assert (He1 : env_inv ((s_start, (false, VUsize i)) :: en) i)
        by (apply env_inv_temp; auto; right; left; reflexivity).
      assert (Ht1 : tenv_inv ((s_start, (false, TUsize)) :: te) ((s_start, (false, VUsize i)) :: en) vals)
        by (apply tenv_inv_start; exact Ht).
      assert (Hst : lookup s_start ((s_start, (false, VUsize i)) :: en) = Some (false, VUsize i))
        by apply lookup_cons_eq.
      revert Hc He1 Ht1 Hst. generalize ((s_start, (false, TUsize)) :: te) as te1.
      generalize ((s_start, (false, VUsize i)) :: en) as en1. intros en1 te1 Hc He1 Ht1 Hst.
      rewrite check_block_cons, check_stmt_if in Hc.
      destruct (check_bexpr te1 _); [|discriminate].
      rewrite check_block_cons, check_stmt_match in Hc.
      destruct (check_scrut te1 (path_slice n) && _); [|discriminate].
      cbn [check_arms check_arm] in Hc.
      destruct (plain_lit (uc :: un)); [|discriminate].
      destruct (check_block senv te1 (SAdd s_i n :: b1) false) as [d1|] eqn:Ec1; [|discriminate].
      cbn [check_block] in Hc.
      assert (Hdyn : exec_block rt senv F en1 (dynamic_block name b') =
        out (run_dynamic rt tyf (trie_run rt method tyf fuel) dchild name vals (skipn i path))).
      { eapply dynamic_exec; eauto. apply Hrec; auto. eapply subtrie_child; eauto. }
      clear Hc. rewrite check_block_cons in Ec1. cbn [check_stmt] in Ec1.
      rewrite (ti_i _ _ _ Ht1) in Ec1.
      rewrite exec_block_cons, exec_stmt_if.
      assert (Hcond : eval_bexpr rt en1
          (if (n =? 1)%nat then BLe (EVar s_i) (EVar s_len) else BLe (EPlus s_i n) (EVar s_len))
          = Some (Some ((n =? 1)%nat || (n <=? length (skipn i path))%nat))).
      { destruct (n =? 1)%nat; cbn [eval_bexpr]; unfold cmp_expr, eval_expr, get_usize;
          rewrite (ei_i _ _ He1), (ei_len _ _ He1); cbn [orb].
        - rewrite leb_correct by lia. reflexivity.
        - rewrite Hlen. do 2 f_equal. destruct (Nat.leb_spec n (length path - i)).
          + apply leb_correct; lia.
          + apply leb_correct_conv; lia. }
      rewrite Hcond.
      assert (Hblock : n <= length (skipn i path) ->
        match leave en1 (exec_block rt senv F en1
          [SMatch (path_slice n) [(AHBlock (uc :: un), SAdd s_i n :: b1); (AHWildUnit, [])]]) with
        | ONext en' => exec_block rt senv F en' (dynamic_block name b')
        | o => o
        end = out (if str_eqb (firstn n (skipn i path)) (uc :: un)
                   then trie_run rt method tyf fuel next vals (skipn n (skipn i path))
                   else run_dynamic rt tyf (trie_run rt method tyf fuel) dchild name vals (skipn i path))).
      { intros Hn. rewrite exec_block_cons, exec_stmt_match, (path_slice_eval _ _ _ He1).
        rewrite leb_correct by exact Hn. cbn [exec_arms arm_matches].
        destruct (str_eqb (firstn n (skipn i path)) (uc :: un)).
        - destruct (add_i en1 i n He1 ltac:(lia)) as (en2 & Ha & _ & He2 & Ho).
          rewrite exec_block_cons. cbn [exec_stmt]. rewrite Ha.
          rewrite (Hrec next b1 Hsub E1 _ _ _ _ _ _ Ec1 He2 (tenv_inv_same _ _ _ _ Ho Ht1)).
          rewrite skipn_skipn'. destruct (trie_run _ _ _ _ _ _ _); reflexivity.
        - cbn [exec_block]. rewrite (leave_same en1 en1 eq_refl). cbn [exec_block].
          rewrite (leave_same en1 en1 eq_refl). exact Hdyn. }
      destruct (Nat.eqb_spec n 1) as [->|Hne]; cbn [orb andb].
      + destruct (skipn i path) as [|b rest'] eqn:Esk; cbn [length Nat.eqb] in *.
        * rewrite exec_block_cons, exec_stmt_match, (path_slice_eval _ _ _ He1), Esk. reflexivity.
        * cbn [Nat.leb andb]. rewrite Hblock by lia. reflexivity.
      + destruct (Nat.leb_spec n (length (skipn i path))) as [Hn|Hn]; cbn [andb].
        * rewrite Hblock by exact Hn. reflexivity.
        * exact Hdyn. }
  unfold gen_children in Eg. unfold run_children.
  destruct (t_children t) as [|[[ch|nm|] child] [|x2 l2]] eqn:Ech; try (apply Hmany; exact Eg).
  - injection Eg as <-. reflexivity.
  - assert (Hs : subtrie (snd (chase child)) t).
    { eapply sub_step; [rewrite Ech; left; reflexivity|]. apply (chase_sub (trie_height child)); lia. }
    destruct (chase child) as [more child']. cbn [snd] in Hs.
    destruct (gen_trie fuel child') as [b'| | |] eqn:Eb; try discriminate.
    injection Eg as <-. apply check_if_notfound in Hc. apply check_expect in Hc.
    destruct Hc as [Hp (d1 & Hc)]. apply plain_byte_len in Hp. rewrite Hp in *.
    remember (ch :: more) as u eqn:Eu.
    assert (Hu1 : 1 <= length u) by (subst u; simpl; lia).
    rewrite exec_block_cons, exec_stmt_if.
    assert (Hcond : eval_bexpr rt en
        (if (length u =? 1)%nat then i_eq_len else BGt (EPlus s_i (length u)) (EVar s_len))
        = Some (Some (negb (length u <=? length (skipn i path))%nat))).
    { destruct (Nat.eqb_spec (length u) 1) as [Hu|Hu].
      - rewrite (i_eq_len_eval _ _ He), Hu. destruct (skipn i path); reflexivity.
      - cbn [eval_bexpr]; unfold cmp_expr, eval_expr, get_usize;
          rewrite (ei_i _ _ He), (ei_len _ _ He).
        rewrite Hlen. do 2 f_equal. rewrite Nat.leb_antisym, Nat.ltb_antisym, Nat.leb_antisym.
        f_equal. f_equal.
        destruct (Nat.ltb_spec (length path - i) (length u)); [apply Nat.ltb_lt|apply Nat.ltb_ge]; lia. }
    rewrite Hcond. rewrite <- firstn_eqb_prefix.
    destruct (Nat.leb_spec (length u) (length (skipn i path))) as [Hn|Hn];
      cbn [negb andb].
    2: reflexivity.
    rewrite exec_block_cons.
    destruct (expect_exec F en i (length u) u b' He Hn) as [[-> (en' & -> & He' & Ho)]|[-> ->]];
      [|reflexivity].
    rewrite (Hrec child' b' Hs Eb _ _ _ _ _ _ Hc He' (tenv_inv_same _ _ _ _ Ho Ht)), skipn_skipn'. reflexivity.
  - destruct (gen_dynamic (gen_trie fuel) child nm) as [b'| | |] eqn:Eb; try discriminate.
    injection Eg as <-. pose proof (gen_dynamic_sep _ _ _ _ Eb) as Hsep.
    apply gen_dynamic_inv in Eb. destruct Eb as (b'' & Eb & ->).
    rewrite check_block_cons in Hc. cbn [check_stmt check_expr] in Hc.
    rewrite (ti_i _ _ _ Ht) in Hc. cbn [is_usize andb] in Hc. destruct (negb (no_variable senv s_start)); [|discriminate].
    rewrite exec_block_cons. cbn [exec_stmt eval_expr]. unfold get_usize.
    rewrite (ei_i _ _ He).
    assert (Hin : In (CDynamic nm, child) (t_children t)) by (rewrite Ech; left; reflexivity).
    eapply dynamic_exec; [exact Hgood|exact Hin|exact Hsep|exact Eb| | |exact Hc| |].
    + apply Hrec; auto. eapply subtrie_child; eauto.
    + apply lookup_cons_eq.
    + apply env_inv_temp; auto; right; left; reflexivity.
    + apply tenv_inv_start; exact Ht.
  - destruct (gen_trie fuel child) as [b'| | |] eqn:Eb; try discriminate.
    injection Eg as <-.
    assert (Hs : subtrie child t) by (eapply subtrie_child; rewrite Ech; left; reflexivity).
    assert (Htail : forall d1 d2, check_block senv te (expect 1 (lit "/") :: b') d1 = Some d2 ->
      forall b rest', skipn i path = b :: rest' ->
      exec_block rt senv F en (expect 1 (lit "/") :: b') =
      out (if N.eqb b c_slash then trie_run rt method tyf fuel child vals rest' else RunResult MNotFound)).
    { intros d1 d2 Hc1 b rest' Esk. apply check_expect in Hc1. destruct Hc1 as [_ (d3 & Hc1)].
      rewrite exec_block_cons.
      assert (Heq : str_eqb (firstn 1 (skipn i path)) (lit "/") = N.eqb b c_slash).
      { rewrite Esk. cbn [firstn]. change (lit "/") with [c_slash]. cbn [str_eqb].
        apply andb_true_r. }
      destruct (expect_exec F en i 1 (lit "/") b' He) as [[H1 (en' & -> & He' & Ho)]|[H1 ->]];
        rewrite ?Esk in *; cbn [length] in *; try lia; rewrite <- Heq, H1; auto.
      rewrite (Hrec child b' Hs Eb _ _ _ _ _ _ Hc1 He' (tenv_inv_same _ _ _ _ Ho Ht)).
      rewrite <- skipn_skipn', Esk. reflexivity. }
    destruct (has_resources (t_data child)) as [fr|] eqn:Er.
    + rewrite check_block_cons in Hc.
      destruct (check_stmt senv te (methods_stmt fr) _) as [[te' d']|] eqn:Ec; [|discriminate].
      assert (Hp : uncaught fr).
      { eapply (tg_data t Hgood); [exact Hs|]. apply has_resources_data; auto. }
      destruct (methods_stmt_exec F en i te te' d' vals fr _ He Ht Hp Ec) as [-> Hx].
      rewrite exec_block_cons, Hx. destruct (skipn i path) as [|b rest'] eqn:Esk.
      * destruct (dispatch method fr vals); reflexivity.
      * eapply Htail; eauto.
    + apply check_if_notfound in Hc.
      rewrite exec_block_cons, exec_stmt_if, (i_eq_len_eval _ _ He).
      destruct (skipn i path) as [|b rest'] eqn:Esk; [reflexivity|]. eapply Htail; eauto.
Qed.
End Exec.
