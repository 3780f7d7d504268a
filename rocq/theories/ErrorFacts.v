(** * ErrorFacts: display of errors and the registry *)
From Verif Require Import Base SpecErrors Errors BaseFacts.

(** ** show_error *)
Lemma utf8_char_len c : length (utf8_char c) > 0.
Proof. unfold utf8_char. repeat destruct (_ <? _)%N; simpl; lia. Qed.
Lemma str_len_app a b : str_len (a ++ b) = str_len a + str_len b.
Proof. unfold str_len, utf8. rewrite flat_map_app, app_length. reflexivity. Qed.
Lemma str_len_cons c s : str_len (c :: s) = length (utf8_char c) + str_len s.
Proof. unfold str_len, utf8. cbn [flat_map]. apply app_length. Qed.
Lemma str_to_app u v : str_to (u ++ v) (str_len u) = Some u.
Proof.
  induction u as [|c u IH]; [destruct v; reflexivity|]. rewrite str_len_cons. cbn [app].
  pose proof (utf8_char_len c). destruct (length (utf8_char c)) as [|k] eqn:E; [lia|]. cbn [str_to Nat.add].
  rewrite E. destruct (Nat.leb_spec (S k) (S (k + str_len u))); [|lia].
  replace (S (k + str_len u) - S k) with (str_len u) by lia. rewrite IH. reflexivity.
Qed.
Lemma str_from_app u v : str_from (u ++ v) (str_len u) = Some v.
Proof.
  induction u as [|c u IH]; [destruct v; reflexivity|]. rewrite str_len_cons. cbn [app].
  pose proof (utf8_char_len c). destruct (length (utf8_char c)) as [|k] eqn:E; [lia|]. cbn [str_from Nat.add].
  rewrite E. destruct (Nat.leb_spec (S k) (S (k + str_len u))); [|lia].
  replace (S (k + str_len u) - S k) with (str_len u) by lia. exact IH.
Qed.
Lemma str_range_app u v x : str_range (u ++ v ++ x) (str_len u) (str_len (u ++ v)) = Some v.
Proof.
  unfold str_range. rewrite str_len_app. destruct (Nat.leb_spec (str_len u) (str_len u + str_len v)); [|lia].
  rewrite str_from_app. replace (str_len u + str_len v - str_len u) with (str_len v) by lia. apply str_to_app.
Qed.
Lemma before_last_none c s : before_last c s = None <-> ~ In c s.
Proof.
  induction s as [|x s IH]; [simpl; tauto|]. cbn [before_last In]. destruct (before_last c s) as [r|].
  - split; [discriminate|]. intros H. assert (~ In c s) by tauto. apply IH in H0. discriminate.
  - destruct (N.eqb_spec x c) as [->|Hn]; split; try discriminate; try tauto.
Qed.
Lemma before_last_some c s r : before_last c s = Some r -> exists l, s = r ++ c :: l /\ ~ In c l.
Proof.
  revert r. induction s as [|x s IH]; intros r H; [discriminate|]. cbn [before_last] in H.
  destruct (before_last c s) as [r'|] eqn:E.
  - injection H as <-. destruct (IH r' eq_refl) as (l & -> & Hl). exists l. auto.
  - destruct (N.eqb_spec x c) as [->|Hn]; [|discriminate]. injection H as <-. exists s.
    split; [reflexivity|]. apply before_last_none. exact E.
Qed.
Lemma before_first_split c s : exists b, s = before_first c s ++ b /\ ~ In c (before_first c s) /\ (b = [] \/ exists b', b = c :: b').
Proof.
  induction s as [|x s IH]; [exists []; simpl; auto|]. cbn [before_first]. destruct (N.eqb_spec x c) as [->|Hn].
  - exists (c :: s). split; [reflexivity|]. split; [intros []|]. eauto.
  - destruct IH as (b & E & Hb & Hc). exists b. cbn [app]. rewrite <- E. split; [reflexivity|]. split; [|exact Hc].
    intros [H|H]; [congruence|tauto].
Qed.
Lemma before_first_app c a s : ~ In c a -> before_first c (a ++ s) = a ++ before_first c s.
Proof.
  induction a as [|x a IH]; intros H; [reflexivity|]. cbn [app before_first]. destruct (N.eqb_spec x c) as [->|_].
  - exfalso. apply H. left. reflexivity.
  - rewrite IH; [reflexivity|]. intros Hin. apply H. right. exact Hin.
Qed.
Lemma count_filter c s : length (filter (fun x => N.eqb x c) s) = count_occ N.eq_dec s c.
Proof.
  induction s as [|x s IH]; [reflexivity|]. cbn [filter count_occ]. destruct (N.eqb_spec x c) as [->|Hn].
  - destruct (N.eq_dec c c); [|congruence]. simpl. rewrite IH. reflexivity.
  - destruct (N.eq_dec x c); [congruence|]. exact IH.
Qed.
Lemma show_error_at u v msg prefix : exists n line col,
  located u v n line col /\ show_error (u ++ v) (str_len u) msg prefix = Some (report prefix msg n line col).
Proof.
  assert (H : exists above l1, u = above ++ l1 /\ ~ In c_nl l1 /\ (above = [] \/ exists a, above = a ++ [c_nl]) /\
            match before_last c_nl u with Some bytes => str_len bytes + 1 | None => 0 end = str_len above).
  { destruct (before_last c_nl u) as [r|] eqn:E.
    - apply before_last_some in E. destruct E as (l & -> & Hl). exists (r ++ [c_nl]), l. rewrite <- app_assoc.
      split; [reflexivity|]. split; [exact Hl|]. split; [right; eauto|]. rewrite str_len_app. reflexivity.
    - apply before_last_none in E. exists [], u. auto. }
  destruct H as (above & l1 & Hu & Hl1 & Ha & Hs).
  destruct (before_first_split c_nl v) as (below & Hv & Hl2 & Hb). set (l2 := before_first c_nl v) in *.
  exists (1 + count_occ N.eq_dec above c_nl), (l1 ++ l2), (1 + length l1). split.
  { exists above, l1, l2, below. repeat split; assumption. }
  unfold show_error. rewrite str_to_app, Hs. rewrite Hu at 1. rewrite <- app_assoc, str_from_app.
  unfold what_line. rewrite Hu at 1. rewrite <- app_assoc, str_to_app. rewrite Hu, <- app_assoc, str_range_app.
  rewrite before_first_app by exact Hl1. fold l2. rewrite count_filter. unfold report, report_line, report_caret, pad_left, spaces, number, decimal.
  rewrite Nat.add_comm with (n := length l1). cbn [lit length]. rewrite <- !app_assoc. reflexivity.
Qed.
Lemma located_fun u v n line col n' line' col' : located u v n line col -> located u v n' line' col' ->
  n = n' /\ line = line' /\ col = col'.
Proof.
  assert (Hpre : forall (a l a' l' : str), a ++ l = a' ++ l' -> ~ In c_nl l -> ~ In c_nl l' ->
            (a = [] \/ exists b, a = b ++ [c_nl]) -> (a' = [] \/ exists b, a' = b ++ [c_nl]) -> a = a' /\ l = l').
  { intros a l a' l' E Hl Hl' Ha Ha'. assert (before_last c_nl (a ++ l) = before_last c_nl (a' ++ l')) by (rewrite E; reflexivity).
    assert (Hb : forall a l, ~ In c_nl l -> (a = [] \/ exists b, a = b ++ [c_nl]) ->
                 match before_last c_nl (a ++ l) with Some b => a = b ++ [c_nl] | None => a = [] end).
    { clear. intros a l Hl [->|[b ->]].
      - cbn [app]. apply before_last_none in Hl. rewrite Hl. reflexivity.
      - rewrite <- app_assoc. cbn [app]. assert (E : before_last c_nl (b ++ c_nl :: l) = Some b); [|rewrite E; reflexivity].
        apply before_last_none in Hl. induction b as [|x b IH]; cbn [app before_last].
        + rewrite Hl. reflexivity.
        + rewrite IH. reflexivity. }
    pose proof (Hb a l Hl Ha) as H1. pose proof (Hb a' l' Hl' Ha') as H2. rewrite <- H in H2.
    destruct (before_last c_nl (a ++ l)) as [b|]; subst a a'; [|auto].
    split; [reflexivity|]. apply app_inv_head in E. exact E. }
  assert (Hpost : forall (l b l' b' : str), l ++ b = l' ++ b' -> ~ In c_nl l -> ~ In c_nl l' ->
            (b = [] \/ exists x, b = c_nl :: x) -> (b' = [] \/ exists x, b' = c_nl :: x) -> l = l').
  { intros l b l' b' E Hl Hl' Hb Hb'. assert (before_first c_nl (l ++ b) = before_first c_nl (l' ++ b')) by (rewrite E; reflexivity).
    rewrite !before_first_app in H by assumption.
    assert (Hz : forall b, (b = [] \/ exists x, b = c_nl :: x) -> before_first c_nl b = []) by (intros ? [->|[x ->]]; reflexivity).
    rewrite (Hz b Hb), (Hz b' Hb'), !app_nil_r in H. exact H. }
  intros (a & l1 & l2 & b & Eu & Ev & Ha & Hb & Hl1 & Hl2 & -> & -> & ->)
         (a' & l1' & l2' & b' & Eu' & Ev' & Ha' & Hb' & Hl1' & Hl2' & -> & -> & ->).
  rewrite Eu in Eu'. rewrite Ev in Ev'. destruct (Hpre _ _ _ _ Eu' Hl1 Hl1' Ha Ha') as [-> ->].
  rewrite (Hpost _ _ _ _ Ev' Hl2 Hl2' Hb Hb'). auto.
Qed.

(** ** The caret *)
Lemma caret_aligned u v n line col prefix : located u v n line col -> length (number n) <= 4 ->
  skipn (length (report_caret prefix col)) (report_line prefix n line) = skipn (col - 1) line.
Proof.
  intros (a & l1 & l2 & b & _ & _ & _ & _ & _ & _ & _ & -> & ->) Hn.
  unfold report_caret, report_line, spaces. rewrite !app_length, !repeat_length.
  rewrite !app_assoc, <- app_assoc. rewrite (skipn_app _ _ (l1 ++ l2)), skipn_all2.
  - cbn [app]. f_equal. rewrite !app_length, repeat_length. cbn [lit length]. lia.
  - rewrite !app_length, repeat_length. cbn [lit length]. lia.
Qed.
(** ** show_errors *)
Section Show.
Variable debug_kind : error_kind -> str.
Lemma get_message_said errors e : message debug_kind errors e (get_message debug_kind errors e).
Proof.
  destruct e as [n|name]; cbn [get_message]; [|constructor]. unfold get_error.
  destruct (nth_error errors (N.to_nat n)) eqn:En; [constructor; exact En|].
  apply message_unknown. apply nth_error_None. exact En.
Qed.
Lemma message_one errors e m m' : message debug_kind errors e m -> message debug_kind errors e m' -> m = m'.
Proof.
  intros H H'. destruct H; inversion H'; subst; try congruence.
  all: match goal with H : nth_error _ _ = Some _, L : _ <= _ |- _ => apply nth_error_None in L; congruence end.
Qed.
Lemma message_unique errors e : exists m, forall m', message debug_kind errors e m' <-> m' = m.
Proof.
  exists (get_message debug_kind errors e). intros m'. split; [|intros ->; apply get_message_said].
  intros H. eapply message_one; [exact H|apply get_message_said].
Qed.
Lemma show_list_ok errors buf prefix v : Forall (fun ie => exists u, buf = u ++ fst ie) v ->
  exists texts, show_list debug_kind errors buf prefix v = Some (concat texts) /\ Forall2 (reported debug_kind errors buf prefix) v texts.
Proof.
  induction 1 as [|[i e] v [u Hu] _ (texts & IH1 & IH2)]; [exists []; split; [reflexivity|constructor]|].
  cbn [fst show_list] in *. destruct (show_error_at u i (get_message debug_kind errors e) prefix) as (n & line & col & Hl & Hs).
  exists (report prefix (get_message debug_kind errors e) n line col :: texts). split.
  - rewrite Hu, str_len_app in *. destruct (Nat.leb_spec (str_len i) (str_len u + str_len i)); [|lia].
    replace (str_len u + str_len i - str_len i) with (str_len u) by lia. rewrite Hs, IH1. reflexivity.
  - constructor; [|exact IH2]. exists u, n, line, col, (get_message debug_kind errors e). auto using get_message_said.
Qed.
End Show.
Lemma show_unlisted debug_kind debug_context errors buf prefix result msg : unlisted debug_kind debug_context result msg ->
  exists line, located [] buf 1 line 1 /\
    show_errors debug_kind debug_context errors buf result prefix = Some (report prefix msg 1 line 1).
Proof.
  assert (H : forall m, exists line, located [] buf 1 line 1 /\ show_error buf 0 m prefix = Some (report prefix m 1 line 1)).
  { intros m. destruct (show_error_at [] buf m prefix) as (n & line & col & Hl & Hs). exists line.
    assert (n = 1 /\ col = 1) as [-> ->].
    { destruct Hl as (a & l1 & l2 & b & E & _ & _ & _ & _ & _ & -> & _ & ->). symmetry in E. apply app_eq_nil in E.
      destruct E as [-> ->]. split; reflexivity. }
    split; [exact Hl|exact Hs]. }
  intros Hu. destruct Hu; cbn [show_errors]; apply H.
Qed.

(** ** The registry *)
Section Registry.
Variable msg : nat -> str.
Variable sites : nat.
Hypothesis sites_small : (N.of_nat sites <= 2 ^ 32)%N.

Lemma upd_same {A} (f : nat -> A) k x : upd f k x k = x.
Proof. unfold upd. rewrite Nat.eqb_refl. reflexivity. Qed.
Lemma upd_other {A} (f : nat -> A) k x n : n <> k -> upd f k x n = f n.
Proof. intros H. unfold upd. apply Nat.eqb_neq in H. rewrite H. reflexivity. Qed.

(** The site a thread is initialising. *)
Definition site_of (p : pc_state) : option nat :=
  match p with
  | Want s | Have s | Got s _ | Pushed s _ | Released s _ => Some s
  | _ => None
  end.
Definition holds (p : pc_state) : Prop :=
  match p with
  | Have _ | Got _ _ | Pushed _ _ | Looking _ => True
  | _ => False
  end.
Definition registered (order : list nat) (p : pc_state) : Prop :=
  match p with
  | Want s | Have s => ~ In s order
  | Got s n => ~ In s order /\ n = length order
  | Pushed s n => nth_error order n = Some s
  | Released s c => nth_error order (N.to_nat c) = Some s
  | _ => True
  end.
Record inv (order : list nat) (st : state) : Prop := {
  inv_errors : st_errors st = map msg order;
  inv_nodup : NoDup order;
  inv_small : forall s, In s order -> s < sites;
  inv_done : forall s c, st_once st s = Done c -> nth_error order (N.to_nat c) = Some s;
  inv_fresh : forall s, st_once st s = Fresh -> ~ In s order;
  inv_run : forall s t, st_once st s = Running t <-> site_of (st_pc st t) = Some s;
  inv_site : forall t s, site_of (st_pc st t) = Some s -> s < sites;
  inv_lock : forall t, st_lock st = Some t <-> holds (st_pc st t);
  inv_reg : forall t, registered order (st_pc st t)
}.
Lemma order_small order : NoDup order -> (forall s, In s order -> s < sites) -> length order <= sites.
Proof.
  intros Hn Hs. rewrite <- (seq_length sites 0). apply NoDup_incl_length; [exact Hn|].
  intros s Hin. apply in_seq. specialize (Hs s Hin). lia.
Qed.
Lemma as_u32_small n : (N.of_nat n < 2 ^ 32)%N -> N.to_nat (as_u32 n) = n.
Proof. intros H. unfold as_u32. rewrite N.mod_small by exact H. apply Nat2N.id. Qed.
Lemma NoDup_app_single (l : list nat) x : NoDup l -> ~ In x l -> NoDup (l ++ [x]).
Proof.
  intros Hl Hx. induction Hl as [|y l Hy _ IH]; [repeat constructor; intros []|]. cbn [app]. constructor.
  - intros Hin. apply in_app_or in Hin. destruct Hin as [Hin|[<-|[]]]; [contradiction|]. apply Hx. left. reflexivity.
  - apply IH. intros Hin. apply Hx. right. exact Hin.
Qed.
Lemma nth_snoc (order : list nat) s n x : nth_error order n = Some x -> nth_error (order ++ [s]) n = Some x.
Proof. intros H. rewrite nth_error_app1; [exact H|]. apply nth_error_Some. congruence. Qed.

Ltac thread t' t := destruct (Nat.eq_dec t' t) as [->|?]; [rewrite ?upd_same in *|rewrite ?(upd_other _ t _ t') in * by assumption].

(** Steps that change neither the registry nor the sites. *)
Lemma inv_pc order st t p lock : inv order st ->
  site_of p = site_of (st_pc st t) -> registered order p ->
  (forall t', lock = Some t' <-> holds (upd (st_pc st) t p t')) ->
  inv order (mkState (st_errors st) lock (st_once st) (upd (st_pc st) t p)).
Proof.
  intros [I1 I2 I3 I4 I5 I6 I7 I8 I9] Hs Hr Hl. constructor; cbn [st_errors st_once st_lock st_pc]; auto.
  - intros s t'. rewrite I6. thread t' t; [rewrite Hs|]; reflexivity.
  - intros t' s. thread t' t; [rewrite Hs|]; apply I7.
  - intros t'. thread t' t; auto.
Qed.
Lemma lock_take order st t p : inv order st -> st_lock st = None -> holds p ->
  forall t', Some t = Some t' <-> holds (upd (st_pc st) t p t').
Proof.
  intros I Hl Hp t'. thread t' t; [tauto|]. split; [congruence|]. intros H. apply (inv_lock _ _ I) in H. congruence.
Qed.
Lemma lock_keep order st t p : inv order st -> (holds p <-> holds (st_pc st t)) ->
  forall t', st_lock st = Some t' <-> holds (upd (st_pc st) t p t').
Proof. intros I Hp t'. rewrite (inv_lock _ _ I). thread t' t; [symmetry; exact Hp|reflexivity]. Qed.
Lemma lock_drop order st t p : inv order st -> holds (st_pc st t) -> ~ holds p ->
  forall t', None = Some t' <-> holds (upd (st_pc st) t p t').
Proof.
  intros I Hh Hp t'. split; [discriminate|]. intros H. thread t' t; [contradiction|].
  apply (inv_lock _ _ I) in H, Hh. congruence.
Qed.
Lemma inv_step order st ev st' : inv order st -> step msg sites st ev st' ->
  exists more, inv (order ++ more) st' /\
    (forall s c, st_once st s = Done c -> st_once st' s = Done c) /\
    (forall t s c, In (EUse t s c) ev -> st_once st' s = Done c) /\
    (forall t c r, In (ELook t c r) ev -> r = get_error (st_errors st) c).
Proof.
  intros I H. destruct H as [st t s Hs Hp Ho|st t s c Hp Ho|st t s Hp Hl|st t s Hp|st t s n Hp|st t s n Hp|st t s c Hp|st t c Hp|st t c Hp Hl|st t c Hp].
  - (* first use *)
    exists []. rewrite app_nil_r. split; [|cbn [st_once In]; split; [|split; intros; contradiction]].
    + pose proof I as [I1 I2 I3 I4 I5 I6 I7 I8 I9]. constructor; cbn [st_errors st_once st_lock st_pc]; auto.
      * intros s' c. thread s' s; [discriminate|apply I4].
      * intros s'. thread s' s; [discriminate|apply I5].
      * intros s' t'. thread t' t.
        { thread s' s; [cbn [site_of]; tauto|]. split; [|cbn [site_of]; congruence].
          intros H. apply I6 in H. rewrite Hp in H. discriminate. }
        { thread s' s; [|apply I6]. split; [congruence|]. intros H. apply I6 in H. congruence. }
      * intros t' s'. thread t' t; [|apply I7]. cbn [site_of]. intros [= <-]. exact Hs.
      * apply (lock_keep order); [exact I|]. rewrite Hp. reflexivity.
      * intros t'. thread t' t; [|apply I9]. cbn [registered]. apply I5. exact Ho.
    + intros s' c H. thread s' s; [congruence|exact H].
  - (* later use *)
    exists []. rewrite app_nil_r. split; [exact I|]. split; [auto|]. split.
    + intros t' s' c' [[= <- <- <-]|[]]. exact Ho.
    + intros t' c' r [H|[]]; discriminate.
  - exists []. rewrite app_nil_r. split; [|cbn [st_once In]; split; [auto|split; intros; contradiction]].
    apply inv_pc; [exact I|rewrite Hp; reflexivity| |apply (lock_take order); [exact I|exact Hl|exact Logic.I]].
    pose proof (inv_reg _ _ I t) as Hr. rewrite Hp in Hr. exact Hr.
  - exists []. rewrite app_nil_r. split; [|cbn [st_once In]; split; [auto|split; intros; contradiction]].
    apply inv_pc; [exact I|rewrite Hp; reflexivity| |apply (lock_keep order); [exact I|rewrite Hp; reflexivity]].
    pose proof (inv_reg _ _ I t) as Hr. rewrite Hp in Hr. cbn [registered] in *. split; [exact Hr|].
    rewrite (inv_errors _ _ I), map_length. reflexivity.
  - (* push *)
    exists [s]. split; [|cbn [st_once In]; split; [auto|split; intros; contradiction]].
    pose proof I as [I1 I2 I3 I4 I5 I6 I7 I8 I9].
    pose proof (I9 t) as Hr. rewrite Hp in Hr. cbn [registered] in Hr. destruct Hr as [Hni ->].
    assert (Hrun : st_once st s = Running t) by (apply I6; rewrite Hp; reflexivity).
    constructor; cbn [st_errors st_once st_lock st_pc].
    + rewrite I1, map_app. reflexivity.
    + apply NoDup_app_single; assumption.
    + intros s' H. apply in_app_or in H. destruct H as [H|[<-|[]]]; [apply I3; exact H|]. apply (I7 t). rewrite Hp. reflexivity.
    + intros s' c H. apply nth_snoc, I4. exact H.
    + intros s' H Hin. apply in_app_or in Hin. destruct Hin as [Hin|[<-|[]]]; [exact (I5 s' H Hin)|congruence].
    + intros s' t'. rewrite I6. thread t' t; [rewrite Hp|]; reflexivity.
    + intros t' s'. thread t' t; [|apply I7]. cbn [site_of]. intros [= <-]. apply (I7 t). rewrite Hp. reflexivity.
    + apply (lock_keep order); [exact I|]. rewrite Hp. reflexivity.
    + intros t'. thread t' t.
      * cbn [registered]. rewrite nth_error_app2, Nat.sub_diag by lia. reflexivity.
      * pose proof (I9 t') as Hr'. pose proof (fun s' => I6 s' t') as Hs'.
        assert (Hne : forall s', site_of (st_pc st t') = Some s' -> s' <> s).
        { intros s' E <-. apply Hs' in E. congruence. }
        destruct (st_pc st t') as [|s'|s'|s' n'|s' n'|s' c'|c'|c'] eqn:Ep; cbn [registered site_of] in *; auto.
        { intros Hin. apply in_app_or in Hin. destruct Hin as [Hin|[<-|[]]]; [contradiction|]. apply (Hne s); reflexivity. }
        { intros Hin. apply in_app_or in Hin. destruct Hin as [Hin|[<-|[]]]; [contradiction|]. apply (Hne s); reflexivity. }
        { (* two threads would hold the lock *)
          assert (H1 : st_lock st = Some t') by (apply I8; rewrite Ep; exact Logic.I).
          assert (H2 : st_lock st = Some t) by (apply I8; rewrite Hp; exact Logic.I). congruence. }
        { apply nth_snoc. exact Hr'. }
        { apply nth_snoc. exact Hr'. }
  - exists []. rewrite app_nil_r. split; [|cbn [st_once In]; split; [auto|split; intros; contradiction]].
    apply inv_pc; [exact I|rewrite Hp; reflexivity| |apply (lock_drop order); [exact I|rewrite Hp; exact Logic.I|intros []]].
    pose proof (inv_reg _ _ I t) as Hr. rewrite Hp in Hr. cbn [registered] in *. rewrite as_u32_small; [exact Hr|].
    pose proof (order_small order (inv_nodup _ _ I) (inv_small _ _ I)) as Hlen.
    assert (Hn : n < length order) by (apply nth_error_Some; congruence). lia.
  - (* end of the initialiser *)
    exists []. rewrite app_nil_r.
    pose proof I as [I1 I2 I3 I4 I5 I6 I7 I8 I9]. pose proof (I9 t) as Hr. rewrite Hp in Hr. cbn [registered] in Hr.
    assert (Hrun : st_once st s = Running t) by (apply I6; rewrite Hp; reflexivity).
    split; [|cbn [st_once]; split; [|split]].
    + constructor; cbn [st_errors st_once st_lock st_pc]; auto.
      * intros s' c'. thread s' s; [intros [= <-]; exact Hr|apply I4].
      * intros s'. thread s' s; [discriminate|apply I5].
      * intros s' t'. thread t' t.
        { cbn [site_of]. split; [|discriminate]. intros H. thread s' s; [discriminate|]. apply I6 in H. rewrite Hp in H.
          cbn [site_of] in H. congruence. }
        { thread s' s; [|apply I6]. split; [discriminate|]. intros H. apply I6 in H. congruence. }
      * intros t' s'. thread t' t; [discriminate|apply I7].
      * apply (lock_keep order); [exact I|]. rewrite Hp. reflexivity.
      * intros t'. thread t' t; [exact Logic.I|apply I9].
    + intros s' c' H. thread s' s; [congruence|exact H].
    + intros t' s' c' [[= <- <- <-]|[]]. apply upd_same.
    + intros t' c' r [H|[]]; discriminate.
  - exists []. rewrite app_nil_r. split; [|cbn [st_once In]; split; [auto|split; intros; contradiction]].
    apply inv_pc; [exact I|rewrite Hp; reflexivity|exact Logic.I|apply (lock_keep order); [exact I|rewrite Hp; reflexivity]].
  - exists []. rewrite app_nil_r. split; [|cbn [st_once In]; split; [auto|split; intros; contradiction]].
    apply inv_pc; [exact I|rewrite Hp; reflexivity|exact Logic.I|apply (lock_take order); [exact I|exact Hl|exact Logic.I]].
  - exists []. rewrite app_nil_r. split; [|cbn [st_once]; split; [auto|split]].
    + apply inv_pc; [exact I|rewrite Hp; reflexivity|exact Logic.I|apply (lock_drop order); [exact I|rewrite Hp; exact Logic.I|intros []]].
    + intros t' s' c' [H|[]]; discriminate.
    + intros t' c' r [[= <- <- <-]|[]]. reflexivity.
Qed.
Lemma inv_init : inv [] (init).
Proof.
  constructor; cbn [init st_errors st_once st_lock st_pc site_of holds registered]; auto; try discriminate; try constructor.
  - intros s [].
  - discriminate.
  - discriminate.
  - discriminate.
  - intros [].
Qed.
(** Everything about an execution. *)
Lemma exec_facts tr st : exec msg sites tr st ->
  exists order, inv order st /\
    (forall t s c, In (EUse t s c) tr -> st_once st s = Done c) /\
    (forall tr1 t s c tr2 t' r, tr = tr1 ++ EUse t s c :: tr2 -> In (ELook t' c r) tr2 -> r = Some (msg s)).
Proof.
  induction 1 as [|tr st ev st' _ (order & I & H1 & H2) Hs].
  - exists []. split; [exact inv_init|]. split; [intros t s c []|]. intros tr1 t s c tr2 t' r E. destruct tr1; discriminate.
  - destruct (inv_step _ _ _ _ I Hs) as (more & I' & Hd & Hu & Hl). exists (order ++ more). split; [exact I'|]. split.
    + intros t s c Hin. apply in_app_or in Hin. destruct Hin as [Hin|Hin]; [apply Hd; eauto|eauto].
    + intros tr1 t s c tr2 t' r E Hin.
      assert (Hev : ev = [] \/ exists e, ev = [e]) by (destruct Hs; eauto). destruct Hev as [->|[e ->]].
      { rewrite app_nil_r in E. eapply H2; eauto. }
      destruct tr2 as [|x tr2 _] using rev_ind; [destruct Hin|].
      rewrite app_comm_cons, app_assoc in E. apply app_inj_tail in E. destruct E as [E <-].
      apply in_app_or in Hin. destruct Hin as [Hin|[->|[]]]; [eapply H2; eauto|].
      assert (Ho : st_once st s = Done c) by (apply (H1 t); rewrite E; apply in_or_app; right; left; reflexivity).
      rewrite (Hl t' c r (or_introl eq_refl)). unfold get_error. rewrite (inv_errors _ _ I).
      apply map_nth_error. apply (inv_done _ _ I). exact Ho.
Qed.
Lemma exec_state tr st t s c : exec msg sites tr st -> In (EUse t s c) tr -> get_error (st_errors st) c = Some (msg s).
Proof.
  intros H Hin. apply exec_facts in H. destruct H as (order & I & H1 & _). unfold get_error. rewrite (inv_errors _ _ I).
  apply map_nth_error, (inv_done _ _ I). eauto.
Qed.
Lemma exec_codes tr st t s c t' s' c' : exec msg sites tr st -> In (EUse t s c) tr -> In (EUse t' s' c') tr -> (s = s' <-> c = c').
Proof.
  intros H Hu Hu'. apply exec_facts in H. destruct H as (order & I & H1 & _). apply H1 in Hu, Hu'. split.
  - intros <-. congruence.
  - intros <-. apply (inv_done _ _ I) in Hu, Hu'. congruence.
Qed.
Lemma exec_once tr st : exec msg sites tr st ->
  exists order, st_errors st = map msg order /\ NoDup order /\ (forall s, In s order -> s < sites /\ st_once st s <> Fresh).
Proof.
  intros H. apply exec_facts in H. destruct H as (order & I & _). exists order.
  split; [apply (inv_errors _ _ I)|]. split; [apply (inv_nodup _ _ I)|]. intros s Hin.
  split; [apply (inv_small _ _ I); exact Hin|]. intros E. exact (inv_fresh _ _ I s E Hin).
Qed.
(** A thread in the middle of an operation: it, or the holder of the lock, can go on. *)
Lemma exec_progress tr st t : exec msg sites tr st -> st_pc st t <> Idle ->
  exists t' ev st', step msg sites st ev st' /\ st_pc st t' <> Idle /\ st_pc st' t' <> st_pc st t' /\
    (t' = t \/ st_lock st = Some t').
Proof.
  intros H Ht. apply exec_facts in H. destruct H as (order & I & _).
  assert (Hgo : forall t', holds (st_pc st t') -> exists ev st', step msg sites st ev st' /\ st_pc st t' <> Idle /\ st_pc st' t' <> st_pc st t').
  { intros t' Hh. destruct (st_pc st t') as [|s|s|s n|s n|s c|c|c] eqn:E; cbn [holds] in Hh; try contradiction.
    - eexists. eexists. split; [apply step_len; exact E|]. cbn [st_pc]. rewrite upd_same. split; discriminate.
    - eexists. eexists. split; [apply step_push; exact E|]. cbn [st_pc]. rewrite upd_same. split; discriminate.
    - eexists. eexists. split; [apply step_unlock; exact E|]. cbn [st_pc]. rewrite upd_same. split; discriminate.
    - eexists. eexists. split; [apply step_looked; exact E|]. cbn [st_pc]. rewrite upd_same. split; discriminate. }
  destruct (st_lock st) as [h|] eqn:El.
  - assert (Hh : holds (st_pc st h)) by (apply (inv_lock _ _ I); exact El).
    destruct (Hgo h Hh) as (ev & st' & H1 & H2 & H3). exists h, ev, st'. auto.
  - destruct (st_pc st t) as [|s|s|s n|s n|s c|c|c] eqn:E.
    + congruence.
    + exists t. eexists. eexists. split; [apply step_lock; [exact E|exact El]|]. cbn [st_pc]. rewrite upd_same, E. repeat split; try discriminate. auto.
    + destruct (Hgo t) as (ev & st' & H1 & H2 & H3); [rewrite E; exact Logic.I|]. exists t, ev, st'. auto.
    + destruct (Hgo t) as (ev & st' & H1 & H2 & H3); [rewrite E; exact Logic.I|]. exists t, ev, st'. auto.
    + destruct (Hgo t) as (ev & st' & H1 & H2 & H3); [rewrite E; exact Logic.I|]. exists t, ev, st'. auto.
    + exists t. eexists. eexists. split; [apply step_done; exact E|]. cbn [st_pc]. rewrite upd_same, E. repeat split; try discriminate. auto.
    + exists t. eexists. eexists. split; [apply step_look_lock; [exact E|exact El]|]. cbn [st_pc]. rewrite upd_same, E. repeat split; try discriminate. auto.
    + destruct (Hgo t) as (ev & st' & H1 & H2 & H3); [rewrite E; exact Logic.I|]. exists t, ev, st'. auto.
Qed.
End Registry.

Lemma show_errors_ok debug_kind debug_context errors buf prefix v result :
  result = NError (CList v) \/ result = NFailure (CList v) ->
  Forall (fun ie => exists u, buf = u ++ fst ie) v ->
  exists texts, show_errors debug_kind debug_context errors buf result prefix = Some (concat texts) /\
    Forall2 (reported debug_kind errors buf prefix) (rev v) texts.
Proof.
  intros Hr Hv. assert (E : show_errors debug_kind debug_context errors buf result prefix = show_list debug_kind errors buf prefix (rev v))
    by (destruct Hr as [->| ->]; reflexivity).
  rewrite E. apply show_list_ok. apply Forall_rev. exact Hv.
Qed.
(** The number of line 10000 does not fit. *)
Lemma count_repeat n : count_occ N.eq_dec (repeat c_nl n) c_nl = n.
Proof. induction n as [|n IH]; [reflexivity|]. cbn [repeat count_occ]. destruct (N.eq_dec c_nl c_nl); [|congruence]. rewrite IH. reflexivity. Qed.
Lemma caret_late : exists u v n line col prefix, located u v n line col /\
  skipn (length (report_caret prefix col)) (report_line prefix n line) <> skipn (col - 1) line.
Proof.
  exists (repeat c_nl (N.to_nat 9999)), (lit "x"), (1 + N.to_nat 9999), (lit "x"), 1, []. split.
  - exists (repeat c_nl (N.to_nat 9999)), [], (lit "x"), []. rewrite app_nil_r, count_repeat.
    repeat split; auto.
    + right. exists (repeat c_nl (N.to_nat 9998)). replace (N.to_nat 9999) with (N.to_nat 9998 + 1) by lia. apply repeat_app.
    + intros [H|[]]. discriminate.
  - vm_compute. discriminate.
Qed.
Lemma exec_silent msg sites tr st st' : exec msg sites tr st -> step msg sites st [] st' -> exec msg sites tr st'.
Proof. intros H Hs. rewrite <- (app_nil_r tr). eapply exec_step; eauto. Qed.
