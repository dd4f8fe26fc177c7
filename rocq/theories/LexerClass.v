(** LexerClass.v — what each token looks like (C02–C05). *)
From Verif Require Import Base SyntaxKind Accept Lexer LexerDirect LexSpec LexerProofs.
From Coq Require Import ZifyBool ZifyN.

(** ** Character classes of the spec and of the code agree *)
Lemma letter_iff c : is_ident_start c = true <-> letter c.
Proof. unfold is_ident_start, letter. lia. Qed.
Lemma digit_iff c : is_number c = true <-> digit c.
Proof. unfold is_number, digit. lia. Qed.
Lemma identc_iff c : is_ident_continue c = true <-> letter c \/ digit c.
Proof. unfold is_ident_continue. rewrite orb_true_iff, letter_iff, digit_iff. reflexivity. Qed.
Lemma hex_iff c : is_hex c = true <-> hexdigit c.
Proof. unfold is_hex, is_number, hexdigit. lia. Qed.
Lemma blank_iff c : is_whitespace c = true <-> blank c.
Proof. unfold is_whitespace, blank. lia. Qed.

Lemma forallb_Forall_iff {A} (f : A -> bool) (P : A -> Prop) l :
  (forall x, f x = true <-> P x) -> forallb f l = true <-> Forall P l.
Proof.
  intros H. induction l as [|x l IH]; cbn; [split; auto|]. rewrite andb_true_iff, Forall_cons_iff, H, IH.
  reflexivity.
Qed.

(** ** Keywords *)
Lemma from_keyword_spec t k : from_keyword t = Some k <-> In (t, k) keywords.
Proof.
  unfold from_keyword.
  assert (Hsame : forall p, In p keyword_table <-> In p keywords).
  { intros p. cbn [keyword_table keywords In]. tauto. }
  assert (Hnd : forall p q, In p keyword_table -> In q keyword_table -> fst p = fst q -> p = q).
  { intros p q Hp Hq. cbn [keyword_table In] in Hp, Hq.
    repeat (destruct Hp as [<-|Hp]; [repeat (destruct Hq as [<-|Hq]; [cbn; congruence|]); destruct Hq|]).
    destruct Hp. }
  split.
  - destruct (find _ keyword_table) as [p|] eqn:E; [|discriminate]. intros [= <-].
    apply find_some in E as [E1 E2]. apply text_eqb_eq in E2 as <-. apply Hsame.
    destruct p; exact E1.
  - intros H. apply Hsame in H. destruct (find _ keyword_table) as [p|] eqn:E.
    + apply find_some in E as [E1 E2]. apply text_eqb_eq in E2.
      specialize (Hnd p (t, k) E1 H E2). subst p. reflexivity.
    + pose proof (find_none _ _ E _ H) as Hn. cbn in Hn. now rewrite text_eqb_refl in Hn.
Qed.

Lemma from_keyword_none t : from_keyword t = None <-> forall k, ~ In (t, k) keywords.
Proof.
  split.
  - intros H k Hk. apply from_keyword_spec in Hk. congruence.
  - intros H. destruct (from_keyword t) as [k|] eqn:E; [|reflexivity].
    apply from_keyword_spec in E. now apply H in E.
Qed.

(** ** One lexer step, by class *)
Definition longer_free (sp b : text) : Prop :=
  forall sp', In sp' (openers ++ map snd spellings) -> prefix_of sp' (sp ++ b) -> length sp' <= length sp.

Inductive Step : kind -> option string -> text -> text -> Prop :=
| St_op k sp b : In (k, sp) spellings -> longer_free sp b -> Step k None sp b
| St_tilde b : hd_is (ch "=") b = false -> Step KUnknown None [ch "~"] b
| St_long r e b : hd_is lbr (r ++ b) || hd_is eqs (r ++ b) = true ->
    dbrackets (r ++ b) = (e, b) -> Step KStr e (lbr :: r) b
| St_comment r b : dcomment (r ++ b) = b -> Step KComment None (ch "-" :: ch "-" :: r) b
| St_str q r e b : is_delim q -> dstr q (r ++ b) = (e, b) -> Step KStr e (q :: r) b
| St_ident c r b : is_ident_start c = true -> forallb is_ident_continue r = true ->
    match b with [] => True | d :: _ => is_ident_continue d = false end ->
    Step (kw_kind (c :: r)) None (c :: r) b
| St_number c r b : is_number c = true -> dnumber (c :: r ++ b) = b -> Step KNumber None (c :: r) b
| St_ws c r b : is_whitespace c = true -> forallb is_whitespace r = true ->
    match b with [] => True | d :: _ => is_whitespace d = false end ->
    Step KWhitespace None (c :: r) b
| St_unknown c b : is_ident_start c = false -> is_number c = false -> is_whitespace c = false ->
    c <> squote -> c <> dquote -> c <> ch "~" ->
    (forall k sp, In (k, sp) spellings -> ~ prefix_of sp (c :: b)) ->
    Step KUnknown (Some "Got an unknown token"%string) [c] b.

Lemma cons_tail_eq (c : char) r l b : c :: r = l ++ b -> l <> [] -> exists l', l = c :: l' /\ r = l' ++ b.
Proof. destruct l as [|x l]; cbn; intros H Hl; [congruence|]. injection H as <- ->. eauto. Qed.

Lemma app_self_nil (l b : text) : b = l ++ b -> l = [].
Proof. intros H. apply (app_inv_tail b). exact (eq_sym H). Qed.

Lemma takew_of f l b : dropw f (l ++ b) = b -> takew f (l ++ b) = l.
Proof.
  intros E. apply (app_inv_tail b). rewrite <- E at 2. symmetry. apply span_app.
Qed.

(** Operators that a given first character can start. *)
Ltac prefix_solve :=
  let sp' := fresh "sp'" in let Hin := fresh in let r := fresh "r" in let Hp := fresh in
  repeat match goal with E : (_ =? _)%N = false |- _ => clear E end;
  repeat match goal with E : forall _, _ |- _ => clear E end;
  intros sp' Hin [r Hp];
  cbn [openers spellings map snd app In] in Hin;
  repeat (destruct Hin as [<-|Hin]; [try (cbn in Hp; discriminate); cbn; try lia;
    try (exfalso; cbn in Hp; injection Hp; intros; subst; cbn in *; discriminate)|]);
  destruct Hin.

Lemma dlex_step l b k e : l <> [] -> dlex (l ++ b) = ((k, e), b) -> Step k e l b.
Proof.
  intros Hl H. destruct l as [|c l]; [congruence|]. clear Hl. cbn [app] in H.
  unfold dlex in H.
  assert (Hsingle : forall k0, ((k0, None), l ++ b) = ((k, e), b) ->
    k = k0 /\ e = None /\ l = []).
  { intros k0 [= <- <- E]. symmetry in E. apply app_self_nil in E. auto. }
  assert (Htwo : forall d k2 k1, two d k2 k1 (l ++ b) = ((k, e), b) ->
    (k = k2 /\ e = None /\ l = [d]) \/ (k = k1 /\ e = None /\ l = [] /\ hd_is d b = false)).
  { intros d k2 k1. unfold two. destruct (hd_is d (l ++ b)) eqn:Eh.
    - intros [= <- <- E]. destruct l as [|x l].
      + cbn [app] in *. destruct b as [|y b]; [discriminate|]. cbn [tl] in E.
        apply (f_equal (@length _)) in E. cbn in E. lia.
      + cbn [app hd_is tl] in *. apply N.eqb_eq in Eh as ->. symmetry in E. apply app_self_nil in E as ->. auto.
    - intros Hs. apply Hsingle in Hs as (-> & -> & ->). auto. }
  Ltac opstep := apply St_op; [cbn; tauto | prefix_solve].
  Ltac onech Hsingle H := apply Hsingle in H as (-> & -> & ->); opstep.
  Ltac twoch Htwo H := let Hb := fresh "Hb" in
    apply Htwo in H as [(-> & -> & ->)|(-> & -> & -> & Hb)]; [opstep|];
    apply St_op; [cbn; tauto|];
    match type of Hb with hd_is _ ?b = _ => destruct b; prefix_solve end.
  Ltac chr c x H := destruct (c =? x)%N eqn:?Ec;
    [match goal with E : (c =? x)%N = true |- _ => apply N.eqb_eq in E; subst c end|].
  chr c (ch "=") H; [twoch Htwo H|].
  chr c (ch "~") H.
  { apply Htwo in H as [(-> & -> & ->)|(-> & -> & -> & Hb)]; [opstep|]. now apply St_tilde. }
  chr c (ch "(") H; [onech Hsingle H|].
  chr c (ch ")") H; [onech Hsingle H|].
  chr c (ch "{") H; [onech Hsingle H|].
  chr c (ch "}") H; [onech Hsingle H|].
  chr c lbr H.
  { destruct (hd_is lbr (l ++ b) || hd_is eqs (l ++ b)) eqn:Eo.
    - injection H as <- <- E. apply St_long; [exact Eo|]. rewrite (surjective_pairing (dbrackets (l ++ b))). now rewrite E.
    - apply Hsingle in H as (-> & -> & ->). apply orb_false_iff in Eo as [Eo1 Eo2]. cbn [app] in *.
      apply St_op; [cbn; tauto|]. destruct b; prefix_solve. }
  chr c rbr H; [onech Hsingle H|].
  chr c (ch ",") H; [onech Hsingle H|].
  chr c (ch ".") H.
  { destruct (hd_is (ch ".") (l ++ b)) eqn:Eh.
    - destruct l as [|x l].
      { exfalso. cbn [app] in *. destruct b as [|y b]; [discriminate|]. cbn [tl] in H.
        destruct (suffix_two (ch ".") KTripleDot KDoubleDot b) as [z Hz]. rewrite H in Hz. cbn [snd] in Hz.
        apply (f_equal (@length _)) in Hz. rewrite app_length in Hz. cbn in Hz. lia. }
      cbn [app hd_is tl] in *. apply N.eqb_eq in Eh as ->. unfold two in H.
      destruct (hd_is (ch ".") (l ++ b)) eqn:Eh2.
      + injection H as <- <- E. destruct l as [|x l].
        { exfalso. cbn [app] in *. destruct b as [|y b]; [discriminate|]. cbn [tl] in E.
          apply (f_equal (@length _)) in E. cbn in E. lia. }
        cbn [app hd_is tl] in *. apply N.eqb_eq in Eh2 as ->. symmetry in E. apply app_self_nil in E as ->.
        opstep.
      + injection H as <- <- E. symmetry in E. apply app_self_nil in E as ->. cbn [app] in Eh2.
        apply St_op; [cbn; tauto|]. destruct b; prefix_solve.
    - apply Hsingle in H as (-> & -> & ->). cbn [app] in Eh.
      apply St_op; [cbn; tauto|]. destruct b; prefix_solve. }
  chr c (ch ";") H; [onech Hsingle H|].
  chr c (ch ":") H; [twoch Htwo H|].
  chr c (ch "#") H; [onech Hsingle H|].
  chr c (ch "+") H; [onech Hsingle H|].
  chr c (ch "*") H; [onech Hsingle H|].
  chr c (ch "/") H; [onech Hsingle H|].
  chr c (ch "%") H; [onech Hsingle H|].
  chr c (ch "^") H; [onech Hsingle H|].
  chr c (ch ">") H; [twoch Htwo H|].
  chr c (ch "<") H; [twoch Htwo H|].
  chr c (ch "!") H; [onech Hsingle H|].
  chr c (ch "-") H.
  { destruct (hd_is (ch "-") (l ++ b)) eqn:Eh.
    - injection H as <- <- E. destruct l as [|x l].
      { exfalso. cbn [app] in *. destruct b as [|y b]; [discriminate|]. cbn [tl] in E.
        pose proof (suffix_len _ _ (suffix_dcomment b)) as Hs. rewrite E in Hs. cbn in Hs. lia. }
      cbn [app hd_is tl] in *. apply N.eqb_eq in Eh as ->. now apply St_comment.
    - apply Hsingle in H as (-> & -> & ->). cbn [app] in Eh.
      apply St_op; [cbn; tauto|]. destruct b; prefix_solve. }
  destruct ((c =? squote)%N || (c =? dquote)%N) eqn:Eq.
  { injection H as <- <- E. apply St_str.
    - apply orb_true_iff in Eq as [Eq|Eq]; apply N.eqb_eq in Eq as ->; [now left|now right].
    - rewrite (surjective_pairing (dstr c (l ++ b))). now rewrite E. }
  destruct (is_ident_start c) eqn:Ei.
  { injection H as <- <- E.
    assert (Hl : takew is_ident_continue (l ++ b) = l).
    { now apply takew_of. }
    rewrite Hl. apply St_ident; [exact Ei| |].
    - rewrite <- Hl. apply takew_all.
    - rewrite <- E. apply dropw_hd. }
  destruct (is_number c) eqn:En.
  { injection H as <- <- E. now apply St_number. }
  destruct (is_whitespace c) eqn:Ew.
  { injection H as <- <- E.
    assert (Hl : takew is_whitespace (l ++ b) = l).
    { now apply takew_of. }
    apply St_ws; [exact Ew| |].
    - rewrite <- Hl. apply takew_all.
    - rewrite <- E. apply dropw_hd. }
  injection H as <- <- E. symmetry in E. apply app_self_nil in E as ->.
  apply orb_false_iff in Eq as [Eq1 Eq2]. apply N.eqb_neq in Eq1, Eq2.
  apply St_unknown; auto.
  - now apply N.eqb_neq.
  - intros k sp Hin [r Hp]. cbn [spellings In] in Hin.
    repeat (destruct Hin as [Hin|Hin];
      [injection Hin as <- <-; cbn in Hp; injection Hp as Hc _; rewrite Hc in *; discriminate|]).
    destruct Hin.
Qed.

(** The classes are exhaustive and exclusive, so a step can be recognised from its shape. *)
Lemma step_nonempty k e l b : Step k e l b -> l <> [].
Proof.
  destruct 1 as [k sp b Hin _| | | | | | | |]; try discriminate.
  cbn [spellings In] in Hin.
  repeat (destruct Hin as [Hin|Hin]; [injection Hin as <- <-; discriminate|]). destruct Hin.
Qed.
