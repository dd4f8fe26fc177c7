(** PropsAccept.v — C57: the accept combinators consume what they match. *)
From Verif Require Import Base Accept.

(** Induction over combinators, through the tuples. *)
Fixpoint lexable_ind' (P : lexable -> Prop) (Hchr : forall c, P (LChr c)) (Hpred : forall f, P (LPred f))
  (Hrange : forall a b, P (LRange a b)) (Hany : P LAny) (Hseq : forall ts, Forall P ts -> P (LSeq ts))
  (Hand : forall ts, Forall P ts -> P (LAnd ts)) (Hor : forall ts, Forall P ts -> P (LOr ts))
  (Hnot : forall t, P t -> P (LNot t)) (Hwhile : forall t, P t -> P (LWhile t)) (Huntil : forall t, P t -> P (LUntil t))
  (Hrep : forall t n, P t -> P (LRepeat t n)) (t : lexable) {struct t} : P t :=
  let go := lexable_ind' P Hchr Hpred Hrange Hany Hseq Hand Hor Hnot Hwhile Huntil Hrep in
  let all := fix all (ts : list lexable) : Forall P ts :=
    match ts with [] => Forall_nil P | x :: r => Forall_cons x (go x) (all r) end in
  match t with
  | LChr c => Hchr c | LPred f => Hpred f | LRange a b => Hrange a b | LAny => Hany
  | LSeq ts => Hseq ts (all ts) | LAnd ts => Hand ts (all ts) | LOr ts => Hor ts (all ts)
  | LNot t => Hnot t (go t) | LWhile t => Hwhile t (go t) | LUntil t => Huntil t (go t) | LRepeat t n => Hrep t n (go t)
  end.

(** * Nothing but a prefix of the rest is consumed; on failure nothing is *)

(** [s'] is [s] after consuming the text [x]. *)
Definition consumed (s : source) (x : text) (s' : source) : Prop :=
  s_rest s = x ++ s_rest s' /\ s_input_len s' = s_input_len s.
Lemma consumed_nil s : consumed s [] s.
Proof. split; reflexivity. Qed.
Lemma consumed_trans s x s1 y s2 : consumed s x s1 -> consumed s1 y s2 -> consumed s (x ++ y) s2.
Proof. intros [E1 L1] [E2 L2]. split; [|congruence]. now rewrite E1, E2, app_assoc. Qed.

Definition fine (f : source -> res (bool * source)) : Prop :=
  forall s b s', f s = Ok (b, s') -> (b = false -> s' = s) /\ exists x, consumed s x s'.

Lemma bump_fine s s' : s_bump s = Ok s' -> exists c, consumed s [c] s'.
Proof. unfold s_bump. destruct s as [n [|c r]]; cbn; [discriminate|]. injection 1 as <-. exists c. split; reflexivity. Qed.
Lemma default_fine t : fine (default_accept t).
Proof.
  intros s b s' H. unfold default_accept in H. destruct (l_peek t s).
  - apply rbind_ok in H as (s1 & H & E). injection E as <- <-. split; [discriminate|]. apply bump_fine in H as (c & H). eauto.
  - injection H as <- <-. split; [reflexivity|]. exists []. apply consumed_nil.
Qed.
Lemma while_fine acc (HA : fine acc) fuel : forall s s', while_loop fuel acc s = Ok s' -> exists x, consumed s x s'.
Proof.
  induction fuel as [|fuel IH]; intros s s' H; [discriminate|]. cbn [while_loop] in H. destruct (s_is_eof s).
  - injection H as <-. exists []. apply consumed_nil.
  - apply rbind_ok in H as ([b s1] & H1 & H). destruct (HA _ _ _ H1) as [_ [x Hx]]. destruct b.
    + destruct (IH _ _ H) as [y Hy]. exists (x ++ y). now apply consumed_trans with s1.
    + injection H as <-. eauto.
Qed.
Lemma accept_fine t : fine (l_accept t).
Proof.
  induction t using lexable_ind'; try (exact (default_fine _)).
  - intros s b s' E. cbn [l_accept] in E. destruct (l_peek (LSeq ts) s).
    + apply rbind_ok in E as (s1 & E & Q). injection Q as <- <-. split; [discriminate|].
      revert s s1 E. induction H as [|t ts Ht _ IH]; intros s s1 E.
      * injection E as <-. exists []. apply consumed_nil.
      * apply rbind_ok in E as ([b s2] & E1 & E). destruct (Ht _ _ _ E1) as [_ [x Hx]]. destruct (IH _ _ E) as [y Hy].
        exists (x ++ y). now apply consumed_trans with s2.
    + injection E as <- <-. split; [reflexivity|]. exists []. apply consumed_nil.
  - cbn [l_accept]. induction H as [|t ts Ht _ IH]; intros s b s' E.
    + injection E as <- <-. split; [reflexivity|]. exists []. apply consumed_nil.
    + apply rbind_ok in E as ([b1 s1] & E1 & E). destruct (Ht _ _ _ E1) as [F Hx]. destruct b1.
      * injection E as <- <-. split; [discriminate|exact Hx].
      * rewrite (F eq_refl) in E. exact (IH _ _ _ E).
  - intros s b s' E. cbn [l_accept] in E. destruct (s_is_eof s && _).
    + injection E as <- <-. split; [reflexivity|]. exists []. apply consumed_nil.
    + apply rbind_ok in E as (s1 & E & Q). injection Q as <- <-. split; [discriminate|]. eapply while_fine; eauto.
  - intros s b s' E. cbn [l_accept] in E. destruct (s_is_eof s && _).
    + injection E as <- <-. split; [reflexivity|]. exists []. apply consumed_nil.
    + apply rbind_ok in E as (s1 & E & Q). injection Q as <- <-. split; [discriminate|]. eapply while_fine; [|exact E]. apply default_fine.
  - intros s b s' E. cbn [l_accept] in E. destruct (l_peek (LRepeat t n) s).
    + apply rbind_ok in E as (s1 & E & Q). injection Q as <- <-. split; [discriminate|].
      revert s s1 E. generalize n at 1 as k. induction k as [|k IH]; intros s s1 E.
      * injection E as <-. exists []. apply consumed_nil.
      * apply rbind_ok in E as ([b s2] & E1 & E). destruct (IHt _ _ _ E1) as [_ [x Hx]]. destruct (IH _ _ E) as [y Hy].
        exists (x ++ y). now apply consumed_trans with s2.
    + injection E as <- <-. split; [reflexivity|]. exists []. apply consumed_nil.
Qed.

Theorem C57_false_changes_nothing : forall t s s', l_accept t s = Ok (false, s') -> s' = s.
Proof. intros t s s' H. now apply (accept_fine t s false s'). Qed.
Print Assumptions C57_false_changes_nothing.

Theorem C57_only_consumes : forall t s b s', l_accept t s = Ok (b, s') -> exists x, s_rest s = x ++ s_rest s' /\ s_input_len s' = s_input_len s.
Proof. intros t s b s' H. now apply (accept_fine t s b s'). Qed.
Print Assumptions C57_only_consumes.

(** * Combinators that denote a set of characters *)

(** [chars_in la P t]: [t] accepts exactly one character, in the set [P]. [la] says that [t] may
    also be used to look ahead (no Not, whose end test is at the current position only). The end
    of input reads as NUL, so NUL itself may not be in the set. *)
Inductive chars_in : bool -> (char -> bool) -> lexable -> Prop :=
| ci_chr la c : c <> 0%N -> chars_in la (fun x => N.eqb x c) (LChr c)
| ci_pred la f : f 0%N = false -> chars_in la f (LPred f)
| ci_range la a b : (0 < a)%N -> chars_in la (fun x => (N.leb a x) && (N.ltb x b)) (LRange a b)
| ci_any la : chars_in la (fun _ => true) LAny
| ci_and la P t Q ts : chars_in la P t -> chars_all la Q ts -> chars_in la (fun x => P x && Q x) (LAnd (t :: ts))
| ci_or la Q ts : chars_some la Q ts -> chars_in la Q (LOr ts)
| ci_not P t : chars_in true P t -> chars_in false (fun x => negb (P x)) (LNot t)
with chars_all : bool -> (char -> bool) -> list lexable -> Prop :=
| ca_nil la : chars_all la (fun _ => true) []
| ca_cons la P t Q ts : chars_in la P t -> chars_all la Q ts -> chars_all la (fun x => P x && Q x) (t :: ts)
with chars_some : bool -> (char -> bool) -> list lexable -> Prop :=
| cs_nil la : chars_some la (fun _ => false) []
| cs_cons la P t Q ts : chars_in la P t -> chars_some la Q ts -> chars_some la (fun x => P x || Q x) (t :: ts).
Scheme ci_ind := Induction for chars_in Sort Prop with ca_ind := Induction for chars_all Sort Prop with cs_ind := Induction for chars_some Sort Prop.
Combined Scheme chars_ind from ci_ind, ca_ind, cs_ind.

(** Does the character [n] places ahead exist and lie in [P]? *)
Definition char_at (P : char -> bool) (x : text) (n : nat) : bool := match nth_error x n with Some c => P c | None => false end.

Lemma nth_at (x : text) n (P : char -> bool) : P 0%N = false -> P (nth n x 0%N) = char_at P x n.
Proof. intros H. unfold char_at. destruct (nth_error x n) eqn:E; [f_equal; exact (nth_error_nth x n 0%N E)|]. rewrite nth_overflow; [exact H|]. now apply nth_error_None. Qed.
Lemma eof_at s n : s_nth_is_eof s n = match nth_error (s_rest s) n with Some _ => false | None => true end.
Proof.
  unfold s_nth_is_eof. destruct (nth_error (s_rest s) n) eqn:E.
  - apply Nat.leb_gt. apply nth_error_Some. congruence.
  - apply Nat.leb_le. now apply nth_error_None.
Qed.
Lemma chars_nth : (forall la P t, chars_in la P t -> forall s n, la = true \/ n = 0 -> l_nth t s n = char_at P (s_rest s) n) /\
  (forall la P ts, chars_all la P ts -> forall s n, la = true \/ n = 0 -> n < length (s_rest s) -> forallb (fun t => l_nth t s n) ts = char_at P (s_rest s) n) /\
  (forall la P ts, chars_some la P ts -> forall s n, la = true \/ n = 0 -> existsb (fun t => l_nth t s n) ts = char_at P (s_rest s) n).
Proof.
  apply chars_ind; intros.
  - cbn [l_nth]. unfold s_nth, eof_char. apply (nth_at _ _ (fun x => N.eqb x c)). apply N.eqb_neq; congruence.
  - cbn [l_nth]. unfold s_nth, eof_char. apply nth_at. exact e.
  - cbn [l_nth]. unfold s_nth, eof_char. apply (nth_at _ _ (fun x => (N.leb a x) && (N.ltb x b))). destruct (N.leb_spec a 0); [lia|reflexivity].
  - cbn [l_nth]. rewrite eof_at. unfold char_at. destruct (nth_error _ _); reflexivity.
  - cbn [l_nth forallb]. rewrite H by assumption. unfold char_at. destruct (nth_error (s_rest s) n) eqn:E; [|reflexivity].
    rewrite H0; [|assumption|apply nth_error_Some; congruence]. unfold char_at. now rewrite E.
  - cbn [l_nth]. now apply H.
  - cbn [l_nth]. destruct H0 as [H0| ->]; [discriminate|]. rewrite H by auto. unfold s_is_eof. rewrite eof_at. unfold char_at. destruct (nth_error _ 0); reflexivity.
  - cbn [forallb]. unfold char_at. destruct (nth_error (s_rest s) n) eqn:E; [reflexivity|]. apply nth_error_None in E. lia.
  - cbn [forallb]. rewrite H by assumption. rewrite H0 by assumption. unfold char_at. destruct (nth_error (s_rest s) n) eqn:E; reflexivity.
  - cbn [existsb]. unfold char_at. destruct (nth_error (s_rest s) n) eqn:E; reflexivity.
  - cbn [existsb]. rewrite H by assumption. rewrite H0 by assumption. unfold char_at. destruct (nth_error (s_rest s) n) eqn:E; reflexivity.
Qed.

(** Accepting one character. *)
Definition take_char (P : char -> bool) (s : source) : bool * source :=
  match s_rest s with c :: r => if P c then (true, mkSource (s_input_len s) r) else (false, s) | [] => (false, s) end.
Lemma default_take la P t : chars_in la P t -> forall s, default_accept t s = Ok (take_char P s).
Proof.
  intros H s. unfold default_accept, l_peek. rewrite (proj1 chars_nth _ _ _ H s 0 (or_intror eq_refl)). unfold char_at, take_char, s_bump.
  destruct (s_rest s) as [|c r]; cbn; [reflexivity|]. destruct (P c); reflexivity.
Qed.
Lemma chars_accept : (forall la P t, chars_in la P t -> forall s, l_accept t s = Ok (take_char P s)) /\
  (forall la P ts, chars_all la P ts -> True) /\
  (forall la P ts, chars_some la P ts -> forall s, l_accept (LOr ts) s = Ok (take_char P s)).
Proof.
  apply chars_ind; intros; auto.
  - apply (default_take true). now constructor.
  - apply (default_take true). now constructor.
  - apply (default_take true). now constructor.
  - apply (default_take true). constructor.
  - apply (default_take la). now constructor.
  - apply (default_take false). now constructor.
  - cbn [l_accept]. unfold take_char. destruct (s_rest s); reflexivity.
  - transitivity (let? (b, s') := l_accept t s in if b then Ok (true, s') else l_accept (LOr ts) s'); [reflexivity|].
    rewrite H. cbn [rbind]. unfold take_char. destruct (s_rest s) as [|x r] eqn:E.
    + rewrite H0. unfold take_char. now rewrite E.
    + destruct (P x); cbn [orb]; [reflexivity|]. rewrite H0. unfold take_char. now rewrite E.
Qed.

(** accept on a character-set combinator: one matching character or nothing, never a panic. *)
Theorem C57_one_char : forall la P t, chars_in la P t -> forall s, match s_rest s with
  | [] => l_accept t s = Ok (false, s)
  | c :: r => (P c = true -> l_accept t s = Ok (true, mkSource (s_input_len s) r)) /\ (P c = false -> l_accept t s = Ok (false, s))
  end.
Proof.
  intros la P t H s. rewrite (proj1 chars_accept _ _ _ H s). unfold take_char. destruct (s_rest s) as [|c r]; [reflexivity|]. split; intros ->; reflexivity.
Qed.
Print Assumptions C57_one_char.

(** [longest P x m r]: [m] is the longest prefix of [x] in [P], [r] the rest. *)
Definition longest (P : char -> bool) (x m r : text) : Prop :=
  x = m ++ r /\ Forall (fun c => P c = true) m /\ match r with [] => True | c :: _ => P c = false end.
Lemma while_takes P acc (HA : forall s, acc s = Ok (take_char P s)) fuel : forall s, length (s_rest s) < fuel ->
  exists m r, longest P (s_rest s) m r /\ while_loop fuel acc s = Ok (mkSource (s_input_len s) r).
Proof.
  induction fuel as [|fuel IH]; intros [n x] Hf; [lia|]. cbn [while_loop s_rest s_input_len] in *. unfold s_is_eof, s_nth_is_eof. cbn [s_rest].
  destruct x as [|c x]; [exists [], []; repeat split; constructor|]. cbn [length Nat.leb]. rewrite HA. unfold take_char. cbn [s_rest s_input_len rbind].
  destruct (P c) eqn:Pc.
  - destruct (IH (mkSource n x)) as (m & r & (E & F & G) & W); [cbn in *; lia|]. exists (c :: m), r. cbn [s_rest s_input_len] in *. rewrite W.
    split; [|reflexivity]. split; [cbn; now rewrite E|]. split; [now constructor|exact G].
  - exists [], (c :: x). split; [|reflexivity]. split; [reflexivity|]. split; [constructor|exact Pc].
Qed.
Theorem C57_while : forall la P t, chars_in la P t -> forall s,
  (s_rest s = [] -> l_accept (LWhile t) s = Ok (false, s)) /\
  (s_rest s <> [] -> exists m r, longest P (s_rest s) m r /\ l_accept (LWhile t) s = Ok (true, mkSource (s_input_len s) r)).
Proof.
  intros la P t H s. split; intros Hs; cbn [l_accept].
  - unfold l_peek. cbn [l_nth]. rewrite (proj1 chars_nth _ _ _ H s 0 (or_intror eq_refl)). unfold s_is_eof, s_nth_is_eof, char_at. rewrite Hs. reflexivity.
  - assert (E : s_is_eof s = false) by (unfold s_is_eof, s_nth_is_eof; destruct (s_rest s); [easy|reflexivity]). rewrite E. cbn [andb].
    destruct (while_takes P (l_accept t) (proj1 chars_accept _ _ _ H) (loop_fuel s) s) as (m & r & L & W); [unfold loop_fuel; lia|].
    exists m, r. split; [exact L|]. now rewrite W.
Qed.
Print Assumptions C57_while.

Theorem C57_until : forall P t, chars_in true P t -> forall s,
  (s_rest s = [] -> l_accept (LUntil t) s = Ok (false, s)) /\
  (s_rest s <> [] -> exists m r, longest (fun c => negb (P c)) (s_rest s) m r /\ l_accept (LUntil t) s = Ok (true, mkSource (s_input_len s) r)).
Proof.
  intros P t H s. exact (C57_while false (fun c => negb (P c)) (LNot t) (ci_not _ _ H) s).
Qed.
Print Assumptions C57_until.

Lemma count_takes P acc (HA : forall s, acc s = Ok (take_char P s)) fuel : forall k s, length (s_rest s) < fuel ->
  exists m r, longest P (s_rest s) m r /\ count_loop fuel acc k s = Ok (k + length m, mkSource (s_input_len s) r).
Proof.
  induction fuel as [|fuel IH]; intros k [n x] Hf; [lia|]. cbn [count_loop s_rest s_input_len] in *. rewrite HA. unfold take_char. cbn [s_rest s_input_len].
  destruct x as [|c x]; cbn [rbind]; [exists [], []; rewrite Nat.add_0_r; repeat split; constructor|].
  destruct (P c) eqn:Pc.
  - destruct (IH (S k) (mkSource n x)) as (m & r & (E & F & G) & W); [cbn in *; lia|]. exists (c :: m), r. cbn [s_rest s_input_len] in *. cbn [rbind]. rewrite W.
    split; [|cbn [length]; do 2 f_equal; lia]. split; [cbn; now rewrite E|]. split; [now constructor|exact G].
  - exists [], (c :: x). rewrite Nat.add_0_r. split; [|reflexivity]. split; [reflexivity|]. split; [constructor|exact Pc].
Qed.
Theorem C57_while_count : forall la P t, chars_in la P t -> forall s,
  exists m r, longest P (s_rest s) m r /\ l_accept_count (LWhile t) s = Ok (length m, mkSource (s_input_len s) r).
Proof.
  intros la P t H s. cbn [l_accept_count]. apply (count_takes P (l_accept t) (proj1 chars_accept _ _ _ H) (loop_fuel s) 0 s). unfold loop_fuel. lia.
Qed.
Print Assumptions C57_while_count.

(** [matches Ps x]: the text [x] has one character per set, in order. *)
Definition matches (Ps : list (char -> bool)) (x : text) : Prop := Forall2 (fun P c => P c = true) Ps x.

Lemma rep_peek P t : chars_in true P t -> forall n s, l_nth (LRepeat t n) s 0 = true <-> exists m r, s_rest s = m ++ r /\ length m = n /\ Forall (fun c => P c = true) m.
Proof.
  intros H n s. cbn [l_nth]. rewrite forallb_forall. split.
  - intros F. revert F. assert (G : forall k x, (forall i, In i (seq k n) -> char_at P (s_rest s) i = true) -> skipn k (s_rest s) = x ->
       exists m r, x = m ++ r /\ length m = n /\ Forall (fun c => P c = true) m).
    { clear -H. induction n as [|n IH]; intros k x F E; [exists [], x; auto|].
      assert (F0 : char_at P (s_rest s) k = true) by (apply F; now left). unfold char_at in F0. destruct (nth_error (s_rest s) k) as [c|] eqn:N; [|discriminate].
      destruct (IH (S k) (skipn (S k) (s_rest s))) as (m & r & E1 & L & Q); [intros i Hi; apply F; now right|reflexivity|].
      exists (c :: m), r. split; [|split; [cbn; lia|now constructor]]. rewrite <- E. cbn [app]. rewrite <- E1.
      clear -N. revert k N. induction (s_rest s) as [|y l IHl]; intros [|k] N; try discriminate; cbn in *; [now injection N as ->|now apply IHl]. }
    intros F. apply (G 0 (s_rest s)); [|reflexivity]. intros i Hi. specialize (F i Hi). rewrite (proj1 chars_nth _ _ _ H) in F; auto.
  - intros (m & r & E & L & F) i Hi. rewrite (proj1 chars_nth _ _ _ H) by auto. cbn [Nat.add]. apply in_seq in Hi. unfold char_at. rewrite E, nth_error_app1 by lia.
    destruct (nth_error m i) eqn:N; [|apply nth_error_None in N; lia]. rewrite Forall_forall in F. apply F. eapply nth_error_In; eauto.
Qed.
Theorem C57_repeat : forall P t, chars_in true P t -> forall n s,
  (forall m r, s_rest s = m ++ r -> length m = n -> Forall (fun c => P c = true) m -> l_accept (LRepeat t n) s = Ok (true, mkSource (s_input_len s) r)) /\
  ((forall m r, s_rest s = m ++ r -> length m = n -> ~ Forall (fun c => P c = true) m) -> l_accept (LRepeat t n) s = Ok (false, s)).
Proof.
  intros P t H n s. split.
  - intros m r E L F. cbn [l_accept]. unfold l_peek. rewrite (proj2 (rep_peek P t H n s)) by eauto.
    match goal with |- (let? s' := ?f n s in _) = _ => enough (G : forall k m s, length m = k -> Forall (fun c => P c = true) m -> s_rest s = m ++ r -> f k s = Ok (mkSource (s_input_len s) r)) end.
    { rewrite (G n m s L F E). reflexivity. }
    clear -H. induction k as [|k IH]; intros [|c m] [n x] L F E; try discriminate; cbn [s_rest s_input_len app] in *; [now subst|].
    inversion F as [|c' m' Fc Fm]; subst. rewrite (proj1 chars_accept _ _ _ H). unfold take_char. cbn [s_rest s_input_len]. rewrite Fc. cbn [rbind].
    rewrite (IH m (mkSource n (m ++ r))); auto.
  - intros N. cbn [l_accept]. unfold l_peek. destruct (l_nth (LRepeat t n) s 0) eqn:E; [|reflexivity]. apply (rep_peek P t H) in E as (m & r & E & L & F). elim (N m r E L F).
Qed.
Print Assumptions C57_repeat.

Lemma seq_peek Ps ts : Forall2 (chars_in true) Ps ts -> forall s, l_nth (LSeq ts) s 0 = true <-> exists m r, s_rest s = m ++ r /\ matches Ps m.
Proof.
  intros H s. cbn [l_nth].
  match goal with |- ?f ts 0 = true <-> _ => enough (G : forall k, f ts k = true <-> exists m r, skipn k (s_rest s) = m ++ r /\ matches Ps m) end; [exact (G 0)|].
  induction H as [|P t Ps ts Ht _ IH]; intros k.
  - split; [intros _; exists [], (skipn k (s_rest s)); split; [reflexivity|constructor]|reflexivity].
  - rewrite Nat.add_0_r, andb_true_iff, (proj1 chars_nth _ _ _ Ht) by auto. rewrite IH. unfold char_at. split.
    + intros (H1 & m & r & E & M). destruct (nth_error (s_rest s) k) as [c|] eqn:N; [|discriminate]. exists (c :: m), r. split; [|now constructor].
      cbn [app]. rewrite <- E. clear -N. revert k N. induction (s_rest s) as [|y l IHl]; intros [|k] N; try discriminate; cbn in *; [now injection N as ->|now apply IHl].
    + intros (m & r & E & M). inversion M as [|P' c Ps' m' Pc M']; subst. cbn [app] in E.
      assert (N : nth_error (s_rest s) k = Some c /\ skipn (S k) (s_rest s) = m' ++ r).
      { clear -E. revert k E. induction (s_rest s) as [|y l IHl]; intros [|k] E; cbn in *; try discriminate; [injection E as -> ->; auto|apply (IHl k E)]. }
      destruct N as [-> N]. split; [exact Pc|]. exists m', r. auto.
Qed.
Theorem C57_seq : forall Ps ts, Forall2 (chars_in true) Ps ts -> forall s,
  (forall m r, s_rest s = m ++ r -> matches Ps m -> l_accept (LSeq ts) s = Ok (true, mkSource (s_input_len s) r)) /\
  ((forall m r, s_rest s = m ++ r -> ~ matches Ps m) -> l_accept (LSeq ts) s = Ok (false, s)).
Proof.
  intros Ps ts H s. split.
  - intros m r E M. cbn [l_accept]. unfold l_peek. rewrite (proj2 (seq_peek Ps ts H s)) by eauto.
    match goal with |- (let? s' := ?f ts s in _) = _ => enough (G : forall m s, matches Ps m -> s_rest s = m ++ r -> f ts s = Ok (mkSource (s_input_len s) r)) end.
    { rewrite (G m s M E). reflexivity. }
    clear -H. induction H as [|P t Ps ts Ht _ IH]; intros m [n x] M E; inversion M as [|P' c Ps' m' Pc M']; subst; cbn [s_rest s_input_len app] in *; [now subst|].
    subst x. rewrite (proj1 chars_accept _ _ _ Ht). unfold take_char. cbn [s_rest s_input_len]. rewrite Pc. cbn [rbind]. rewrite (IH m' (mkSource n (m' ++ r))); auto.
  - intros N. cbn [l_accept]. unfold l_peek. destruct (l_nth (LSeq ts) s 0) eqn:E; [|reflexivity]. apply (seq_peek Ps ts H) in E as (m & r & E & M). elim (N m r E M).
Qed.
Print Assumptions C57_seq.

(** * What is false *)

(** A combinator whose set contains NUL panics at the end of the input. *)
Theorem C57_refuted_eof : ~ (forall t s, exists b s', l_accept t s = Ok (b, s')).
Proof. intros H. destruct (H (LPred (fun c => negb (N.eqb c 97%N))) (mkSource 0 [])) as (b & s' & E). discriminate E. Qed.
Print Assumptions C57_refuted_eof.

(** While over a combinator that can succeed without consuming does not terminate: no bound on
    the number of iterations suffices. *)
Theorem C57_refuted_while : forall fuel, while_loop fuel (l_accept (LWhile (LChr 97%N))) (mkSource 1 (txt "b")) = OutOfFuel.
Proof. induction fuel as [|fuel IH]; [reflexivity|]. exact IH. Qed.
Print Assumptions C57_refuted_while.

Example C57_case : chars_in true (fun c => N.eqb c 97%N) (LChr 97%N) /\
  l_accept (LWhile (LChr 97%N)) (mkSource 3 (txt "aab")) = Ok (true, mkSource 3 (txt "b")) /\
  l_accept (LRepeat (LChr 97%N) 3) (mkSource 3 (txt "aab")) = Ok (false, mkSource 3 (txt "aab")) /\
  l_accept (LSeq [LChr 97%N; LAny; LNot (LChr 97%N)]) (mkSource 3 (txt "aab")) = Ok (true, mkSource 3 []).
Proof. split; [constructor; discriminate|]. repeat split; reflexivity. Qed.
