(** LexerProofs.v — totality, losslessness and classification of tokens. *)
From Verif Require Import Base SyntaxKind Accept Lexer LexerDirect LexSpec.
From Coq Require Import ZifyBool ZifyN.

(** ** Suffixes *)
Definition suffix (b t : text) : Prop := exists a, t = a ++ b.
Lemma suffix_refl t : suffix t t.
Proof. now exists []. Qed.
Lemma suffix_trans a b c : suffix a b -> suffix b c -> suffix a c.
Proof. intros [x ->] [y ->]. exists (y ++ x). now rewrite app_assoc. Qed.
Lemma suffix_cons c t : suffix t (c :: t).
Proof. now exists [c]. Qed.
Lemma suffix_dropw f t : suffix (dropw f t) t.
Proof. exists (takew f t). apply span_app. Qed.
Lemma suffix_tl t : suffix (tl t) t.
Proof. destruct t; [apply suffix_refl|apply suffix_cons]. Qed.
Lemma suffix_drop1 c t : suffix (drop1 c t) t.
Proof.
  destruct t as [|d t]; cbn; [apply suffix_refl|].
  destruct (d =? c)%N; [apply suffix_cons|apply suffix_refl].
Qed.
Lemma suffix_nil t : suffix [] t.
Proof. exists t. now rewrite app_nil_r. Qed.
Lemma suffix_len b t : suffix b t -> length b <= length t.
Proof. intros [a ->]. rewrite app_length. lia. Qed.

Lemma suffix_skip t : suffix (skip_body t) t.
Proof.
  enough (H : forall m t, length t <= m -> suffix (skip_body t) t) by (apply (H (length t)); lia).
  clear t. induction m as [|m IH]; intros [|c r] Hm; try (cbn in *; lia); try apply suffix_refl.
  rewrite skip_body_cons. destruct (c =? backslash)%N.
  - destruct r as [|d r']; [apply suffix_nil|]. destruct (d =? rbr)%N.
    + eapply suffix_trans; [apply IH; cbn in *; lia|]. now exists [c; d].
    + eapply suffix_trans; [apply IH; cbn in *; lia|]. apply suffix_cons.
  - destruct (c =? rbr)%N; [apply suffix_refl|].
    eapply suffix_trans; [apply IH; cbn in *; lia|]. apply suffix_cons.
Qed.

Lemma suffix_dclose fuel n t : suffix (snd (dclose fuel n t)) t.
Proof.
  revert t; induction fuel as [|fuel IH]; intros t; [apply suffix_nil|]. cbn [dclose].
  pose proof (suffix_skip t) as Hs. destruct (skip_body t) as [|c r]; [apply suffix_nil|].
  assert (Hr : suffix (dropw (N.eqb eqs) r) t).
  { eapply suffix_trans; [apply suffix_dropw|]. eapply suffix_trans; [apply suffix_cons|exact Hs]. }
  destruct (n =? _); [exact Hr|]. eapply suffix_trans; [apply IH|exact Hr].
Qed.

Lemma suffix_dbracket n t : suffix (snd (dbracket n t)) t.
Proof.
  unfold dbracket, dclose_all.
  pose proof (suffix_dclose (S (S (length (drop1 lbr t)))) n (drop1 lbr t)) as H.
  destruct (dclose _ n (drop1 lbr t)) as [found r]. cbn [snd] in H.
  assert (Hr : suffix r t) by (eapply suffix_trans; [exact H|apply suffix_drop1]).
  destruct found; cbn [snd]; [|exact Hr]. eapply suffix_trans; [apply suffix_drop1|exact Hr].
Qed.

Lemma suffix_dbrackets t : suffix (snd (dbrackets t)) t.
Proof. unfold dbrackets. eapply suffix_trans; [apply suffix_dbracket|apply suffix_dropw]. Qed.

Lemma suffix_dstr q t : suffix (snd (dstr q t)) t.
Proof.
  enough (H : forall m t, length t <= m -> suffix (snd (dstr q t)) t) by (apply (H (length t)); lia).
  clear t. induction m as [|m IH]; intros [|c r] Hm; try (cbn in *; lia); try apply suffix_refl.
  rewrite dstr_cons. destruct (c =? eof_char)%N; [apply suffix_refl|].
  destruct (c =? newline)%N; [apply suffix_refl|]. destruct (c =? q)%N; [apply suffix_cons|].
  destruct (c =? backslash)%N.
  - destruct r as [|d r']; [apply suffix_nil|]. destruct (d =? q)%N.
    + eapply suffix_trans; [apply IH; cbn in *; lia|]. now exists [c; d].
    + eapply suffix_trans; [apply IH; cbn in *; lia|]. apply suffix_cons.
  - eapply suffix_trans; [apply IH; cbn in *; lia|]. apply suffix_cons.
Qed.

Lemma suffix_dcomment t : suffix (dcomment t) t.
Proof.
  unfold dcomment. destruct (_ && _); [|apply suffix_dropw].
  eapply suffix_trans; [apply suffix_dropw|].
  eapply suffix_trans; [apply suffix_dbrackets|apply suffix_drop1].
Qed.

Lemma suffix_dnumber_dec t : suffix (dnumber_dec t) t.
Proof.
  unfold dnumber_dec. set (t1 := dropw is_number t).
  assert (H1 : suffix t1 t) by apply suffix_dropw.
  set (t2 := if hd_is (ch ".") t1 then dropw is_number (drop1 (ch ".") t1) else t1).
  assert (H2 : suffix t2 t).
  { unfold t2. destruct (hd_is (ch ".") t1); [|exact H1].
    eapply suffix_trans; [apply suffix_dropw|]. eapply suffix_trans; [apply suffix_drop1|exact H1]. }
  destruct (_ || _); [|exact H2].
  eapply suffix_trans; [apply suffix_dropw|]. eapply suffix_trans; [apply suffix_drop1|].
  eapply suffix_trans; [apply suffix_tl|exact H2].
Qed.

Lemma suffix_dnumber c r : is_number c = true -> suffix (dnumber (c :: r)) r.
Proof.
  intros Hc. assert (Hdec : suffix (dnumber_dec (c :: r)) r).
  { unfold dnumber_dec. rewrite dropw_cons, Hc. apply (suffix_dnumber_dec r). }
  unfold dnumber. destruct r as [|d r].
  - rewrite dropw_cons, Hc. apply suffix_dropw.
  - destruct (_ && _); [|exact Hdec].
    eapply suffix_trans; [apply suffix_dropw|apply suffix_cons].
Qed.

Lemma suffix_two c k2 k1 r : suffix (snd (two c k2 k1 r)) r.
Proof. unfold two. destruct (hd_is c r); [apply suffix_tl|apply suffix_refl]. Qed.

Lemma suffix_dlex c r : suffix (snd (dlex (c :: r))) r.
Proof.
  unfold dlex.
  repeat match goal with
  | |- suffix (snd (if (?x =? ?y)%N then _ else _)) _ => destruct (x =? y)%N;
      [solve [apply suffix_two | apply suffix_refl]|]
  end.
  destruct (c =? lbr)%N.
  - destruct (_ || _); cbn [snd]; [apply suffix_dbrackets|apply suffix_refl].
  - destruct (c =? rbr)%N; [apply suffix_refl|].
    destruct (c =? ch ",")%N; [apply suffix_refl|].
    destruct (c =? ch ".")%N.
    { destruct (hd_is _ r); [|apply suffix_refl].
      eapply suffix_trans; [apply suffix_two|apply suffix_tl]. }
    repeat match goal with
    | |- suffix (snd (if (?x =? ?y)%N then _ else _)) _ => destruct (x =? y)%N;
        [solve [apply suffix_two | apply suffix_refl]|]
    end.
    destruct (c =? ch "-")%N.
    { destruct (hd_is _ r); cbn [snd]; [|apply suffix_refl].
      eapply suffix_trans; [apply suffix_dcomment|apply suffix_tl]. }
    destruct (_ || _); cbn [snd]; [apply suffix_dstr|].
    destruct (is_ident_start c); cbn [snd]; [apply suffix_dropw|].
    destruct (is_number c) eqn:En; cbn [snd]; [now apply suffix_dnumber|].
    destruct (is_whitespace c); cbn [snd]; [apply suffix_dropw|apply suffix_refl].
Qed.

(** ** Tokenization as a list of lexemes *)

Definition lexed_tok := (kind * option string * text)%type.

(** [Lexed t ls]: [ls] is what the lexer produces on [t]. *)
Inductive Lexed : text -> list lexed_tok -> Prop :=
| L_nil : Lexed [] []
| L_cons k e l b ls : l <> [] -> dlex (l ++ b) = ((k, e), b) -> Lexed b ls ->
    Lexed (l ++ b) ((k, e, l) :: ls).

Definition lt_tok (x : lexed_tok) : token := mkToken (fst (fst x)) (blen (snd x)).
Definition lt_err (x : lexed_tok) : option string := snd (fst x).
Definition lt_text (x : lexed_tok) : text := snd x.

Lemma Lexed_total t : exists ls, Lexed t ls.
Proof.
  enough (H : forall m t, length t <= m -> exists ls, Lexed t ls) by (apply (H (length t)); lia).
  clear t. induction m as [|m IH]; intros [|c r] Hm; try (cbn in *; lia); try (exists []; constructor).
  destruct (suffix_dlex c r) as [a Ha].
  destruct (dlex (c :: r)) as [[k e] b] eqn:E. cbn [snd] in Ha.
  destruct (IH b) as [ls Hls]; [rewrite Ha in Hm; cbn in Hm; rewrite app_length in Hm; lia|].
  exists ((k, e, c :: a) :: ls). rewrite Ha. change (c :: a ++ b) with ((c :: a) ++ b).
  constructor; [discriminate| |exact Hls]. cbn [app]. rewrite <- Ha. exact E.
Qed.

Lemma Lexed_fun t ls1 : Lexed t ls1 -> forall ls2, Lexed t ls2 -> ls1 = ls2.
Proof.
  induction 1 as [|k e l b ls Hl Hd Hls IH]; intros ls2 H2.
  - inversion H2 as [|k e l b ls Hl Hd Hls E]; [reflexivity|].
    destruct l; [congruence|discriminate].
  - inversion H2 as [E|k2 e2 l2 b2 ls2' Hl2 Hd2 Hls2 E].
    + destruct l; [congruence|discriminate].
    + rewrite E, Hd in Hd2. injection Hd2 as <- <- <-.
      apply app_inv_tail in E as ->. f_equal. now apply IH.
Qed.

Lemma Lexed_text t ls : Lexed t ls -> t = flat_map lt_text ls.
Proof. induction 1 as [|k e l b ls Hl Hd Hls IH]; cbn; [reflexivity|]. now rewrite <- IH. Qed.

Lemma fits_le n m : m <= n -> fits_u32 n = true -> fits_u32 m = true.
Proof. unfold fits_u32. rewrite !N.ltb_lt. lia. Qed.

Lemma first_token_direct c r : fits_u32 (blen (c :: r)) = true ->
  forall k e b l, dlex (c :: r) = ((k, e), b) -> c :: r = l ++ b ->
  first_token (c :: r) = Ok (Some (mkToken k (blen l),
    option_map (fun m => mkErr m (mkRange 0 (blen l))) e)).
Proof.
  intros Hf k e b l Hd Hl. unfold first_token, source_new. rewrite Hf. cbn [rbind].
  change (mkSource (blen (c :: r)) (c :: r)) with (src (blen (c :: r)) (c :: r)).
  rewrite lex_main_direct by lia. cbn [rbind]. rewrite Hd. cbn [fst snd].
  unfold s_pos. cbn [src s_input_len s_rest]. rewrite Hl, blen_app.
  replace (blen l + blen b - blen b) with (blen l) by lia. reflexivity.
Qed.

Lemma tokenize_loop_direct t ls : Lexed t ls -> forall fuel pos,
  length t < fuel -> fits_u32 (blen t) = true ->
  tokenize_loop fuel pos t = Ok (map lt_tok ls, errors_of pos (map lt_tok ls) (map lt_err ls)).
Proof.
  induction 1 as [|k e l b ls Hl Hd Hls IH]; intros fuel pos Hfu Hf; (destruct fuel as [|fuel]; [lia|]).
  - reflexivity.
  - cbn [tokenize_loop]. destruct l as [|c l]; [congruence|]. cbn [app] in *.
    rewrite (first_token_direct c (l ++ b) Hf k e b (c :: l) Hd eq_refl). cbn [rbind t_len].
    change (c :: l ++ b) with ((c :: l) ++ b). rewrite bsplit_app.
    rewrite IH.
    + cbn [rbind map lt_tok lt_err errors_of fst snd t_len]. destruct e as [m|]; cbn [option_map e_msg e_range r_start r_end].
      * rewrite (Nat.add_comm (blen (c :: l)) pos). reflexivity.
      * reflexivity.
    + cbn [length] in Hfu. rewrite app_length in Hfu. lia.
    + eapply fits_le; [|exact Hf]. cbn [blen]. rewrite blen_app. lia.
Qed.

Lemma tokenize_direct t ls : Lexed t ls -> fits_u32 (blen t) = true ->
  tokenize t = Ok (map lt_tok ls, errors_of 0 (map lt_tok ls) (map lt_err ls)).
Proof. intros H Hf. apply (tokenize_loop_direct t ls H); [lia|exact Hf]. Qed.

Lemma tokenize_too_long t : t <> [] -> fits_u32 (blen t) = false -> tokenize t = Panic.
Proof.
  intros Ht Hf. destruct t as [|c t]; [congruence|]. unfold tokenize. cbn [tokenize_loop].
  unfold first_token, source_new. rewrite Hf. reflexivity.
Qed.

Lemma tokenize_ok_fits t r : tokenize t = Ok r -> fits_u32 (blen t) = true.
Proof.
  intros H. destruct (fits_u32 (blen t)) eqn:E; [reflexivity|].
  destruct t as [|c t]; [discriminate E|]. rewrite tokenize_too_long in H by (discriminate || exact E).
  discriminate.
Qed.

(** Splitting by byte lengths is unique. *)
Lemma app_blen_inj a1 b1 a2 b2 : a1 ++ b1 = a2 ++ b2 -> blen a1 = blen a2 -> a1 = a2 /\ b1 = b2.
Proof.
  intros H Hl. pose proof (bsplit_app a1 b1) as H1. rewrite H, Hl, bsplit_app in H1.
  injection H1 as -> ->. auto.
Qed.

Lemma sum_lens ls : list_sum (map t_len (map lt_tok ls)) = blen (flat_map lt_text ls).
Proof.
  induction ls as [|x ls IH]; [reflexivity|]. cbn [map list_sum fold_right flat_map].
  rewrite blen_app. cbn [lt_tok t_len]. unfold list_sum in IH. rewrite IH. reflexivity.
Qed.

Lemma Lexed_app_inv ls1 : forall t ls2, Lexed t (ls1 ++ ls2) ->
  exists b, t = flat_map lt_text ls1 ++ b /\ Lexed b ls2.
Proof.
  induction ls1 as [|x ls1 IH]; intros t ls2 H; [exists t; auto|].
  cbn [app] in H. inversion H as [|k e l b ls Hl Hd Hls E1 E2]; subst.
  apply IH in Hls as (b' & -> & Hb). exists b'. cbn [flat_map lt_text snd].
  now rewrite <- app_assoc.
Qed.

(** A token of a tokenization comes from one lexer step. *)
Lemma token_at_lexed t a k l b : token_at t a k l b ->
  exists e ls1 ls2, Lexed t (ls1 ++ (k, e, l) :: ls2) /\ a = flat_map lt_text ls1 /\
    l <> [] /\ dlex (l ++ b) = ((k, e), b) /\ Lexed b ls2.
Proof.
  intros (toks & errs & pre & post & Ht & Htoks & Htext & Hlen).
  destruct (Lexed_total t) as [ls Hls].
  pose proof (tokenize_direct t ls Hls (tokenize_ok_fits _ _ Ht)) as Hd. rewrite Ht in Hd.
  injection Hd as Hd _. rewrite Htoks in Hd.
  symmetry in Hd. apply map_eq_app in Hd as (ls1 & ls2 & -> & Hpre & Hpost).
  destruct ls2 as [|[[k' e] l'] ls2]; [discriminate|]. cbn [map lt_tok fst snd] in Hpost.
  injection Hpost as Hk Hl Hpost. subst k'.
  destruct (Lexed_app_inv _ _ _ Hls) as (b1 & Ht1 & Hb1).
  inversion Hb1 as [|k2 e2 l2 b2 ls3 Hl2 Hd2 Hls2 E1 E2]. subst.
  assert (Ha : a = flat_map lt_text ls1 /\ l ++ b = l' ++ b2).
  { apply app_blen_inj; [congruence|]. rewrite Hlen, sum_lens. reflexivity. }
  destruct Ha as [-> Hlb]. apply app_blen_inj in Hlb as [-> ->]; [|congruence].
  exists e, ls1, ls2. auto.
Qed.

Lemma lexed_token_at t ls1 k e l b ls2 : Lexed t (ls1 ++ (k, e, l) :: ls2) ->
  fits_u32 (blen t) = true -> flat_map lt_text ls2 = b ->
  token_at t (flat_map lt_text ls1) k l b.
Proof.
  intros H Hf <-. unfold token_at.
  pose proof (tokenize_direct _ _ H Hf) as Ht.
  eexists _, _, (map lt_tok ls1), (map lt_tok ls2). split; [exact Ht|].
  rewrite map_app. split; [reflexivity|].
  split; [|now rewrite sum_lens].
  rewrite (Lexed_text _ _ H) at 1. rewrite flat_map_app. reflexivity.
Qed.

(** ** C01 *)
Lemma tokenize_total t : fits_u32 (blen t) = true ->
  exists toks errs, tokenize t = Ok (toks, errs) /\
    exists ls : list text, map blen ls = map t_len toks /\ concat ls = t /\
      Forall (fun l => l <> []) ls.
Proof.
  intros Hf. destruct (Lexed_total t) as [ls Hls].
  exists (map lt_tok ls), (errors_of 0 (map lt_tok ls) (map lt_err ls)).
  split; [now apply tokenize_direct|]. exists (map lt_text ls). split; [|split].
  - rewrite !map_map. reflexivity.
  - rewrite <- flat_map_concat_map. symmetry. now apply Lexed_text.
  - clear Hf. induction Hls as [|k e l b ls Hl Hd Hls IH]; cbn; constructor; auto.
Qed.
