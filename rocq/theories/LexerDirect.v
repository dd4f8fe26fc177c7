(** LexerDirect.v — a direct-style description of the lexer of Lexer.v and the proof that
    Lexer.v computes it. A proof device: the model is Lexer.v. *)
From Verif Require Import Base SyntaxKind Accept Lexer.

(** Longest prefix whose characters satisfy [f], and the rest. *)
Fixpoint span (f : char -> bool) (t : text) : text * text :=
  match t with
  | [] => ([], [])
  | c :: r => if f c then let (a, b) := span f r in (c :: a, b) else ([], t)
  end.
Definition dropw (f : char -> bool) (t : text) : text := snd (span f t).
Definition takew (f : char -> bool) (t : text) : text := fst (span f t).

Lemma span_app f t : t = takew f t ++ dropw f t.
Proof.
  unfold takew, dropw. induction t as [|c t IH]; cbn; [reflexivity|].
  destruct (f c); [|reflexivity]. destruct (span f t); cbn in *. now f_equal.
Qed.
Lemma takew_all f t : forallb f (takew f t) = true.
Proof.
  unfold takew. induction t as [|c t IH]; cbn; [reflexivity|].
  destruct (f c) eqn:E; [|reflexivity]. destruct (span f t); cbn in *. now rewrite E.
Qed.
Lemma dropw_hd f t : match dropw f t with [] => True | c :: _ => f c = false end.
Proof.
  unfold dropw. induction t as [|c t IH]; cbn; [exact I|].
  destruct (f c) eqn:E; [|exact E]. destruct (span f t); cbn in *. exact IH.
Qed.
Lemma dropw_cons f c t : dropw f (c :: t) = if f c then dropw f t else c :: t.
Proof. unfold dropw. cbn. destruct (f c); [|reflexivity]. destruct (span f t); reflexivity. Qed.
Lemma takew_cons f c t : takew f (c :: t) = if f c then c :: takew f t else [].
Proof. unfold takew. cbn. destruct (f c); [|reflexivity]. destruct (span f t); reflexivity. Qed.
Lemma dropw_len f t : length (dropw f t) <= length t.
Proof. rewrite (span_app f t) at 2. rewrite app_length. lia. Qed.

Lemma span_unique f a b : forallb f a = true ->
  match b with [] => True | c :: _ => f c = false end ->
  takew f (a ++ b) = a /\ dropw f (a ++ b) = b.
Proof.
  induction a as [|c a IH]; cbn [app forallb]; intros Ha Hb.
  - destruct b as [|d b]; [split; reflexivity|]. rewrite takew_cons, dropw_cons, Hb. auto.
  - apply andb_true_iff in Ha as [Hc Ha]. rewrite takew_cons, dropw_cons, Hc.
    destruct (IH Ha Hb) as [-> ->]. auto.
Qed.

Definition src (n : nat) (t : text) : source := mkSource n t.

Lemma src_eof n t : s_is_eof (src n t) = match t with [] => true | _ => false end.
Proof. destruct t; reflexivity. Qed.
Lemma src_cur n t : s_current (src n t) = hd 0%N t.
Proof. destruct t; reflexivity. Qed.

Lemma acc_chr n c t : c <> 0%N ->
  l_accept (LChr c) (src n t)
  = Ok (match t with d :: r => if (d =? c)%N then (true, src n r) else (false, src n t)
               | [] => (false, src n t) end).
Proof.
  intros Hc. cbn [l_accept]. unfold default_accept, l_peek. cbn [l_nth].
  destruct t as [|d r].
  - unfold s_nth. cbn [src s_rest nth]. unfold eof_char. destruct (N.eqb_spec 0 c); [congruence|reflexivity].
  - unfold s_nth. cbn [src s_rest nth]. destruct (d =? c)%N; reflexivity.
Qed.

Lemma while_pred_loop n f fuel t : f 0%N = false -> length t < fuel ->
  while_loop fuel (l_accept (LPred f)) (src n t) = Ok (src n (dropw f t)).
Proof.
  intros Hf. revert t; induction fuel as [|fuel IH]; intros t Hl; [lia|].
  cbn [while_loop]. rewrite src_eof. destruct t as [|c t]; [reflexivity|].
  cbn [l_accept]. unfold default_accept, l_peek. cbn [l_nth]. unfold s_nth. cbn [src s_rest nth].
  rewrite dropw_cons. destruct (f c).
  - cbn [s_bump src s_rest rbind]. rewrite <- IH by (cbn in Hl; lia). reflexivity.
  - reflexivity.
Qed.

Lemma acc_while_pred n f t : f 0%N = false ->
  exists b, l_accept (LWhile (LPred f)) (src n t) = Ok (b, src n (dropw f t)).
Proof.
  intros Hf. cbn [l_accept]. destruct (s_is_eof (src n t) && negb (l_peek (LWhile (LPred f)) (src n t))) eqn:E.
  - apply andb_true_iff in E as [E _]. rewrite src_eof in E. destruct t; [|discriminate].
    eexists; reflexivity.
  - change (fun s => default_accept (LPred f) s) with (l_accept (LPred f)).
    rewrite (while_pred_loop n f) by (exact Hf || (unfold loop_fuel; cbn; lia)).
    cbn [rbind]. eexists; reflexivity.
Qed.

Lemma count_chr_loop n c fuel k t : c <> 0%N -> length t < fuel ->
  count_loop fuel (l_accept (LChr c)) k (src n t)
  = Ok (k + length (takew (N.eqb c) t), src n (dropw (N.eqb c) t)).
Proof.
  intros Hc. revert k t; induction fuel as [|fuel IH]; intros k t Hl; [lia|].
  cbn [count_loop]. rewrite (acc_chr n c t Hc). cbn [rbind].
  destruct t as [|d t]; [cbn; now rewrite Nat.add_0_r|].
  rewrite takew_cons, dropw_cons, (N.eqb_sym c d). destruct (d =? c)%N; cbn [rbind length].
  - rewrite IH by (cbn in Hl; lia). f_equal. f_equal. cbn. lia.
  - now rewrite Nat.add_0_r.
Qed.

Lemma acc_count_chr n c t : c <> 0%N ->
  l_accept_count (LWhile (LChr c)) (src n t)
  = Ok (length (takew (N.eqb c) t), src n (dropw (N.eqb c) t)).
Proof.
  intros Hc. unfold l_accept_count.
  rewrite (count_chr_loop n c) by (exact Hc || (unfold loop_fuel; cbn; lia)). reflexivity.
Qed.

Lemma acc_any n c t : l_accept LAny (src n (c :: t)) = Ok (true, src n t).
Proof. reflexivity. Qed.
Lemma bump_any n c t : l_bump LAny (src n (c :: t)) = Ok (src n t).
Proof. reflexivity. Qed.
Lemma bump_then_any n c t : l_bump_then LAny (src n (c :: t)) = Ok (hd 0%N t, src n t).
Proof. unfold l_bump_then. rewrite bump_any. destruct t; reflexivity. Qed.
Lemma bump_chr n c t : c <> 0%N -> l_bump (LChr c) (src n (c :: t)) = Ok (src n t).
Proof. intros Hc. unfold l_bump. rewrite acc_chr by exact Hc. rewrite N.eqb_refl. reflexivity. Qed.

(** Skipping to the first [\n] excluded. *)
Lemma until_nl_loop n fuel t : length t < fuel ->
  while_loop fuel (default_accept (LNot (LChr newline))) (src n t)
  = Ok (src n (dropw (fun c => negb (N.eqb c newline)) t)).
Proof.
  revert t; induction fuel as [|fuel IH]; intros t Hl; [lia|].
  cbn [while_loop]. rewrite src_eof. destruct t as [|c t]; [reflexivity|].
  unfold default_accept at 1, l_peek. cbn [l_nth]. unfold s_nth. cbn [src s_rest nth].
  rewrite dropw_cons. change (s_is_eof _) with false. cbn [negb andb].
  destruct (negb (c =? newline)%N).
  - cbn [s_bump src s_rest rbind]. rewrite <- IH by (cbn in Hl; lia). reflexivity.
  - reflexivity.
Qed.
Lemma acc_until_nl n t :
  exists b, l_accept (LUntil (LChr newline)) (src n t)
    = Ok (b, src n (dropw (fun c => negb (N.eqb c newline)) t)).
Proof.
  cbn [l_accept].
  destruct (s_is_eof (src n t) && negb (l_peek (LUntil (LChr newline)) (src n t))) eqn:E.
  - apply andb_true_iff in E as [E _]. rewrite src_eof in E. destruct t; [|discriminate].
    eexists; reflexivity.
  - rewrite until_nl_loop by (unfold loop_fuel; cbn; lia). cbn [rbind]. eexists; reflexivity.
Qed.

(** ** Long brackets *)

(** Up to the first [']'] that is not directly preceded by an unpaired backslash. *)
Fixpoint skip_body (t : text) : text :=
  match t with
  | [] => []
  | c :: r =>
    if (c =? backslash)%N then
      match r with
      | d :: r' => if (d =? rbr)%N then skip_body r' else skip_body r
      | [] => []
      end
    else if (c =? rbr)%N then t else skip_body r
  end.

Lemma skip_body_cons c r : skip_body (c :: r) =
    if (c =? backslash)%N then
      match r with
      | d :: r' => if (d =? rbr)%N then skip_body r' else skip_body r
      | [] => []
      end
    else if (c =? rbr)%N then c :: r else skip_body r.
Proof. reflexivity. Qed.

Definition body_lex := LOr [LSeq [LChr backslash; LChr rbr]; LNot (LChr rbr)].

Lemma acc_body n c r :
  l_accept body_lex (src n (c :: r)) =
  Ok (if (c =? backslash)%N then
        match r with
        | d :: r' => if (d =? rbr)%N then (true, src n r') else (true, src n r)
        | [] => (true, src n r)
        end
      else if (c =? rbr)%N then (false, src n (c :: r)) else (true, src n r)).
Proof.
  unfold body_lex. cbn [l_accept]. unfold l_peek. cbn [l_nth]. unfold s_nth. cbn [src s_rest nth Nat.add].
  rewrite andb_true_r. destruct (c =? backslash)%N eqn:Ec.
  - apply N.eqb_eq in Ec as ->. cbn [andb].
    destruct r as [|d r']; [reflexivity|]. cbn [nth]. destruct (d =? rbr)%N eqn:Ed.
    + apply N.eqb_eq in Ed as ->. cbn [rbind]. reflexivity.
    + cbn [rbind]. reflexivity.
  - cbn [andb rbind]. unfold default_accept, l_peek. cbn [l_nth]. unfold s_nth. cbn [s_rest nth].
    change (s_is_eof _) with false. cbn [negb andb src s_rest nth]. destruct (c =? rbr)%N; reflexivity.
Qed.

Lemma body_loop n fuel t : length t < fuel ->
  while_loop fuel (l_accept body_lex) (src n t) = Ok (src n (skip_body t)).
Proof.
  revert t; induction fuel as [|fuel IH]; intros t Hl; [lia|].
  cbn [while_loop]. rewrite src_eof. destruct t as [|c r]; [reflexivity|].
  rewrite acc_body, skip_body_cons. cbn [rbind].
  destruct (c =? backslash)%N.
  - destruct r as [|d r'].
    + cbn [rbind]. rewrite IH by (cbn in *; lia). reflexivity.
    + destruct (d =? rbr)%N; cbn [rbind]; rewrite IH by (cbn in *; lia); reflexivity.
  - destruct (c =? rbr)%N; cbn [rbind]; [reflexivity|]. apply IH. cbn in *; lia.
Qed.
Lemma acc_while_body n t :
  exists b, l_accept (LWhile body_lex) (src n t) = Ok (b, src n (skip_body t)).
Proof.
  change (l_accept (LWhile body_lex) (src n t)) with
    (if s_is_eof (src n t) && negb (l_peek (LWhile body_lex) (src n t)) then Ok (false, src n t)
      else let? s' := while_loop (loop_fuel (src n t)) (l_accept body_lex) (src n t) in Ok (true, s')).
  destruct (_ && _) eqn:E.
  - apply andb_true_iff in E as [E _]. rewrite src_eof in E. destruct t; [|discriminate].
    eexists; reflexivity.
  - rewrite body_loop by (unfold loop_fuel; cbn; lia). cbn [rbind]. eexists; reflexivity.
Qed.

Lemma skip_body_len t : length (skip_body t) <= length t.
Proof.
  enough (H : forall m t, length t <= m -> length (skip_body t) <= length t) by eauto.
  clear t. induction m as [|m IH]; intros [|c r] Hm; try (cbn in *; lia).
  rewrite skip_body_cons. destruct (c =? backslash)%N.
  - destruct r as [|d r']; [cbn; lia|]. destruct (d =? rbr)%N.
    + specialize (IH r'). cbn in *. lia.
    + specialize (IH (d :: r')). cbn [length] in *. lia.
  - destruct (c =? rbr)%N; [lia|]. specialize (IH r). cbn in *; lia.
Qed.

Lemma skip_body_hd t : match skip_body t with [] => True | c :: _ => c = rbr end.
Proof.
  enough (H : forall m t, length t <= m -> match skip_body t with [] => True | c :: _ => c = rbr end) by (apply (H (length t)); lia).
  clear t. induction m as [|m IH]; intros [|c r] Hm; try (cbn in *; lia); try exact I.
  rewrite skip_body_cons. destruct (c =? backslash)%N.
  - destruct r as [|d r']; [exact I|]. destruct (d =? rbr)%N.
    + apply IH. cbn in *. lia.
    + apply IH. cbn [length] in *. lia.
  - destruct (c =? rbr)%N eqn:E; [now apply N.eqb_eq in E|]. apply IH. cbn in *; lia.
Qed.

(** After the opening bracket: to a [']'] followed by exactly [n] equal signs. *)
Fixpoint dclose (fuel n : nat) (t : text) : bool * text :=
  match fuel with
  | 0 => (false, [])
  | S fuel' =>
    match skip_body t with
    | [] => (false, [])
    | _ :: r =>
      if n =? length (takew (N.eqb eqs) r) then (true, dropw (N.eqb eqs) r)
      else dclose fuel' n (dropw (N.eqb eqs) r)
    end
  end.

Lemma close_loop_direct n fuel count t : length t < fuel ->
  close_loop fuel count (src n t)
  = Ok (let (b, r) := dclose fuel count t in (b, src n r)).
Proof.
  revert t; induction fuel as [|fuel IH]; intros t Hl; [lia|].
  cbn [close_loop dclose]. fold body_lex.
  destruct (acc_while_body n t) as [b ->]. cbn [rbind].
  rewrite acc_chr by discriminate. pose proof (skip_body_hd t) as Hh. pose proof (skip_body_len t) as Hs.
  destruct (skip_body t) as [|c r]; [reflexivity|]. subst c. cbn [N.eqb rbr rbind].
  change (Pos.eqb 93 93) with true. cbn [negb].
  rewrite acc_count_chr by discriminate. cbn [rbind].
  rewrite (Nat.eqb_sym count). rewrite Nat.eqb_sym. destruct (count =? _); [reflexivity|].
  cbn [negb]. apply IH. pose proof (dropw_len (N.eqb eqs) r). cbn in Hs; lia.
Qed.

Definition dclose_all (count : nat) (t : text) : bool * text := dclose (S (S (length t))) count t.

Definition hd_is (c : char) (t : text) : bool :=
  match t with d :: _ => (d =? c)%N | [] => false end.
Definition drop1 (c : char) (t : text) : text :=
  match t with d :: r => if (d =? c)%N then r else t | [] => [] end.

Lemma acc_chr' n c t : c <> 0%N ->
  l_accept (LChr c) (src n t) = Ok (hd_is c t, src n (drop1 c t)).
Proof.
  intros Hc. rewrite acc_chr by exact Hc. unfold hd_is, drop1. destruct t as [|d r]; [reflexivity|].
  destruct (d =? c)%N; reflexivity.
Qed.

Definition dbracket (count : nat) (t : text) : option string * text :=
  let (found, r) := dclose_all count (drop1 lbr t) in
  if found then
    ((if hd_is lbr t && hd_is rbr r then None else Some "Invalid bracket notation"%string), drop1 rbr r)
  else (Some "Could not find bracket string close"%string, r).

Lemma lex_close_direct n count t :
  lex_close count (src n t) = Ok (fst (dbracket count t), src n (snd (dbracket count t))).
Proof.
  unfold lex_close, dbracket, dclose_all. rewrite acc_chr' by discriminate. cbn [rbind].
  change (loop_fuel (src n (drop1 lbr t))) with (S (S (length (drop1 lbr t)))).
  rewrite close_loop_direct by lia. cbn [rbind].
  destruct (dclose _ count (drop1 lbr t)) as [found r]. destruct found; cbn [negb].
  - rewrite acc_chr' by discriminate. reflexivity.
  - reflexivity.
Qed.

Definition dbrackets (t : text) : option string * text :=
  dbracket (length (takew (N.eqb eqs) t)) (dropw (N.eqb eqs) t).

Lemma bracket_enclosed_direct n t : (hd_is lbr t || hd_is eqs t) = true ->
  bracket_enclosed (src n t) = Ok (fst (dbrackets t), src n (snd (dbrackets t))).
Proof.
  intros H. unfold bracket_enclosed, dbrackets. destruct t as [|c t]; [discriminate|].
  cbn [hd_is] in H. rewrite src_cur. cbn [hd]. rewrite H. cbn [rassert rbind].
  unfold l_peek. cbn [l_nth]. unfold s_nth. cbn [src s_rest nth].
  rewrite takew_cons, dropw_cons. destruct (c =? lbr)%N eqn:Ec.
  - apply N.eqb_eq in Ec as ->. change (eqs =? lbr)%N with false. cbn [length].
    apply lex_close_direct.
  - cbn [orb] in H. rewrite H. rewrite (N.eqb_sym eqs c), H.
    change (mkSource n (c :: t)) with (src n (c :: t)).
    rewrite acc_count_chr by discriminate. cbn [rbind]. rewrite takew_cons, dropw_cons, (N.eqb_sym eqs c), H.
    apply lex_close_direct.
Qed.

(** ** Short strings *)

Definition unclosed_msg (delim : char) : string :=
  ("Could not find closing delimiter `" ++ String (ascii_of_N delim) "`")%string.

Fixpoint dstr (delim : char) (t : text) : option string * text :=
  match t with
  | [] => (Some (unclosed_msg delim), [])
  | c :: r =>
    if (c =? eof_char)%N then (Some (unclosed_msg delim), t)
    else if (c =? newline)%N then (Some "Unexpected newline in string"%string, t)
    else if (c =? delim)%N then (None, r)
    else if (c =? backslash)%N then
      match r with
      | d :: r' => if (d =? delim)%N then dstr delim r' else dstr delim r
      | [] => (Some (unclosed_msg delim), [])
      end
    else dstr delim r
  end.

Lemma dstr_cons delim c r : dstr delim (c :: r) =
    if (c =? eof_char)%N then (Some (unclosed_msg delim), c :: r)
    else if (c =? newline)%N then (Some "Unexpected newline in string"%string, c :: r)
    else if (c =? delim)%N then (None, r)
    else if (c =? backslash)%N then
      match r with
      | d :: r' => if (d =? delim)%N then dstr delim r' else dstr delim r
      | [] => (Some (unclosed_msg delim), [])
      end
    else dstr delim r.
Proof. reflexivity. Qed.

Definition is_delim (c : char) : Prop := c = squote \/ c = dquote.

Lemma bump_str n delim c r : is_delim delim -> (c =? delim)%N = false ->
  l_bump (LOr [LSeq [LChr backslash; LChr delim]; LAny]) (src n (c :: r)) =
  Ok (if (c =? backslash)%N then
        match r with
        | d :: r' => if (d =? delim)%N then src n r' else src n r
        | [] => src n r
        end
      else src n r).
Proof.
  intros Hd Hc. unfold l_bump. cbn [l_accept]. unfold l_peek. cbn [l_nth]. unfold s_nth.
  cbn [src s_rest nth Nat.add]. rewrite andb_true_r.
  destruct (c =? backslash)%N eqn:Ec.
  - apply N.eqb_eq in Ec as ->. cbn [andb].
    destruct r as [|d r']; [destruct Hd as [-> | ->]; reflexivity|]. cbn [nth].
    destruct (d =? delim)%N eqn:Ed.
    + apply N.eqb_eq in Ed as ->. cbn [rbind].
      unfold default_accept at 1, l_peek. cbn [l_nth]. unfold s_nth. cbn [s_rest nth].
      change (backslash =? backslash)%N with true. cbn [s_bump s_rest s_input_len rbind].
      unfold default_accept at 1, l_peek. cbn [l_nth]. unfold s_nth.
      do 3 (unfold s_bump, rbind; cbn [src s_rest s_input_len nth]).
      rewrite ?N.eqb_refl. reflexivity.
    + reflexivity.
  - reflexivity.
Qed.

Lemma string_loop_direct n delim fuel t : is_delim delim -> length t < fuel ->
  string_loop fuel delim (src n t) = Ok (fst (dstr delim t), src n (snd (dstr delim t))).
Proof.
  intros Hd. revert t; induction fuel as [|fuel IH]; intros t Hl; [lia|].
  cbn [string_loop]. rewrite src_cur. destruct t as [|c r]; [reflexivity|]. cbn [hd].
  rewrite dstr_cons. destruct (c =? eof_char)%N; [reflexivity|].
  destruct (c =? newline)%N; [reflexivity|].
  destruct (c =? delim)%N eqn:Ec.
  - apply N.eqb_eq in Ec as ->. rewrite bump_chr by (destruct Hd as [-> | ->]; discriminate). reflexivity.
  - rewrite bump_str by assumption. cbn [rbind].
    destruct (c =? backslash)%N.
    + destruct r as [|d r'].
      * rewrite IH by (cbn in *; lia). reflexivity.
      * destruct (d =? delim)%N; apply IH; cbn in *; lia.
    + apply IH. cbn in *; lia.
Qed.

(** ** Numbers *)
Definition dnumber (t : text) : text :=
  match t with
  | c :: d :: r =>
    if (c =? ch "0")%N && (d =? ch "x")%N then dropw is_hex r
    else
      let t1 := dropw is_number t in
      let t2 := if hd_is (ch ".") t1 then dropw is_number (drop1 (ch ".") t1) else t1 in
      if hd_is (ch "e") t2 || hd_is (ch "E") t2
      then dropw is_number (drop1 (ch "-") (tl t2)) else t2
  | _ => dropw is_number t
  end.

Definition dnumber_dec (t : text) : text :=
  let t1 := dropw is_number t in
  let t2 := if hd_is (ch ".") t1 then dropw is_number (drop1 (ch ".") t1) else t1 in
  if hd_is (ch "e") t2 || hd_is (ch "E") t2
  then dropw is_number (drop1 (ch "-") (tl t2)) else t2.

Lemma lex_number_direct n t : match t with c :: _ => is_number c = true | [] => False end ->
  lex_number (src n t) = Ok ((KNumber, None), src n (dnumber t)).
Proof.
  intros H. destruct t as [|c t]; [easy|]. unfold lex_number.
  unfold l_peek at 1. cbn [l_nth]. unfold s_nth. cbn [src s_rest nth]. rewrite H. cbn [rassert rbind].
  assert (E0 : l_accept (LSeq [C "0"; C "x"]) (src n (c :: t)) =
    Ok (match t with d :: r => if (c =? ch "0")%N && (d =? ch "x")%N then (true, src n r) else (false, src n (c :: t))
        | [] => (false, src n (c :: t)) end)).
  { cbn [l_accept C]. unfold l_peek. cbn [l_nth C]. unfold s_nth. cbn [src s_rest nth Nat.add].
    rewrite andb_true_r. destruct (c =? ch "0")%N eqn:E1; cbn [andb].
    - apply N.eqb_eq in E1 as ->. destruct t as [|d r]; [reflexivity|]. cbn [nth].
      destruct (d =? ch "x")%N eqn:E2; [|reflexivity]. apply N.eqb_eq in E2 as ->. reflexivity.
    - destruct t; reflexivity. }
  change (mkSource n (c :: t)) with (src n (c :: t)).
  rewrite E0. cbn [rbind].
  assert (Edec : (let? (_, s) := l_accept (LWhile (LPred is_number)) (src n (c :: t)) in
    let? (b, s) := l_accept (C ".") s in
    let? s := (if b then let? (_, s) := l_accept (LWhile (LPred is_number)) s in Ok s
               else Ok s) in
    let? (b1, s) := l_accept (C "e") s in
    let? (b, s) := (if b1 then Ok (true, s) else l_accept (C "E") s) in
    let? s := (if b then
                 let? (_, s) := l_accept (C "-") s in
                 let? (_, s) := l_accept (LWhile (LPred is_number)) s in Ok s
               else Ok s) in
    ok_kind KNumber s) = Ok ((KNumber, None), src n (dnumber_dec (c :: t)))).
  { unfold C, dnumber_dec.
    destruct (acc_while_pred n is_number (c :: t) eq_refl) as [b ->]. cbn [rbind].
    set (t1 := dropw is_number (c :: t)). rewrite acc_chr' by discriminate. cbn [rbind].
    set (t2 := if hd_is (ch ".") t1 then dropw is_number (drop1 (ch ".") t1) else t1).
    assert (E2 : (if hd_is (ch ".") t1 then
         let? (_, s) := l_accept (LWhile (LPred is_number)) (src n (drop1 (ch ".") t1)) in Ok s
         else Ok (src n (drop1 (ch ".") t1))) = Ok (src n t2)).
    { unfold t2. destruct (hd_is (ch ".") t1) eqn:Eh.
      - destruct (acc_while_pred n is_number (drop1 (ch ".") t1) eq_refl) as [b' ->]. reflexivity.
      - unfold drop1. destruct t1 as [|x t1']; [reflexivity|]. cbn [hd_is] in Eh. rewrite Eh. reflexivity. }
    rewrite E2. cbn [rbind]. rewrite acc_chr' by discriminate. cbn [rbind].
    destruct t2 as [|x t2'].
    { cbn [hd_is drop1]. rewrite acc_chr' by discriminate. reflexivity. }
    cbn [hd_is drop1 tl]. destruct (x =? ch "e")%N eqn:Ee.
    - cbn [rbind orb]. rewrite acc_chr' by discriminate. cbn [rbind].
      destruct (acc_while_pred n is_number (drop1 (ch "-") t2') eq_refl) as [b' ->]. reflexivity.
    - rewrite acc_chr' by discriminate. cbn [rbind orb hd_is drop1].
      destruct (x =? ch "E")%N; [|reflexivity]. rewrite acc_chr' by discriminate. cbn [rbind].
      destruct (acc_while_pred n is_number (drop1 (ch "-") t2') eq_refl) as [b' ->]. reflexivity. }
  destruct t as [|d r].
  - rewrite Edec. f_equal. f_equal. f_equal. unfold dnumber_dec, dnumber.
    rewrite dropw_cons, H. reflexivity.
  - cbn [dnumber]. destruct ((c =? ch "0")%N && (d =? ch "x")%N).
    + destruct (acc_while_pred n is_hex r eq_refl) as [b ->]. reflexivity.
    + exact Edec.
Qed.

(** ** Identifiers, whitespace, comments *)
Definition kw_kind (t : text) : kind := match from_keyword t with Some k => k | None => KIdent end.

Lemma lex_ident_direct n c t : is_ident_start c = true -> blen (c :: t) <= n ->
  lex_ident (src n (c :: t))
  = Ok ((kw_kind (c :: takew is_ident_continue t), None), src n (dropw is_ident_continue t)).
Proof.
  intros Hc Hn. unfold lex_ident.
  assert (E1 : l_bump (LPred is_ident_start) (src n (c :: t)) = Ok (src n t)).
  { unfold l_bump. cbn [l_accept]. unfold default_accept, l_peek. cbn [l_nth]. unfold s_nth.
    cbn [src s_rest nth]. rewrite Hc. reflexivity. }
  rewrite E1. cbn [rbind]. destruct (acc_while_pred n is_ident_continue t eq_refl) as [b ->]. cbn [rbind].
  unfold s_pos. cbn [src s_input_len s_rest].
  replace (n - blen (dropw is_ident_continue t) - (n - blen (c :: t)))
    with (blen (c :: takew is_ident_continue t)).
  2:{ assert (E : blen (c :: t) = blen (c :: takew is_ident_continue t) + blen (dropw is_ident_continue t)).
      { rewrite <- blen_app. cbn [app]. now rewrite <- span_app. }
      lia. }
  pose proof (bslice_app [] (c :: takew is_ident_continue t) (dropw is_ident_continue t)) as Hb.
  cbn [app blen Nat.add] in Hb. rewrite <- span_app in Hb.
  change (utf8_len c + blen (takew is_ident_continue t)) with (blen (c :: takew is_ident_continue t)) in Hb.
  rewrite Hb. reflexivity.
Qed.

Lemma lex_whitespace_direct n c t : is_whitespace c = true ->
  lex_whitespace (src n (c :: t)) = Ok ((KWhitespace, None), src n (dropw is_whitespace t)).
Proof.
  intros Hc. unfold lex_whitespace. unfold l_peek. cbn [l_nth]. unfold s_nth. cbn [src s_rest nth].
  rewrite Hc. cbn [rassert rbind]. change (mkSource n (c :: t)) with (src n (c :: t)).
  destruct (acc_while_pred n is_whitespace (c :: t) eq_refl) as [b ->].
  rewrite dropw_cons, Hc. reflexivity.
Qed.

Definition not_nl (c : char) : bool := negb (N.eqb c newline).

(** After the two dashes. *)
Definition dcomment (t : text) : text :=
  if hd_is lbr t && hd_is lbr (drop1 lbr t)
  then dropw not_nl (snd (dbrackets (drop1 lbr t)))
  else dropw not_nl t.

Lemma lex_comment_direct n t :
  lex_comment (src n (ch "-" :: t)) = Ok ((KComment, None), src n (dcomment t)).
Proof.
  unfold lex_comment, dcomment, C. rewrite bump_chr by discriminate. cbn [rbind].
  rewrite acc_chr' by discriminate. cbn [rbind].
  destruct (hd_is lbr t) eqn:E; cbn [andb].
  - unfold l_peek. cbn [l_nth]. unfold s_nth. cbn [src s_rest].
    replace (nth 0 (drop1 lbr t) eof_char =? lbr)%N with (hd_is lbr (drop1 lbr t))
      by (destruct (drop1 lbr t); reflexivity).
    destruct (hd_is lbr (drop1 lbr t)) eqn:E2.
    + change (mkSource n (drop1 lbr t)) with (src n (drop1 lbr t)).
      rewrite bracket_enclosed_direct by (rewrite E2; reflexivity). cbn [rbind].
      destruct (acc_until_nl n (snd (dbrackets (drop1 lbr t)))) as [b ->]. reflexivity.
    + cbn [rbind]. change (mkSource n (drop1 lbr t)) with (src n (drop1 lbr t)).
      destruct (acc_until_nl n (drop1 lbr t)) as [b ->]. cbn [rbind].
      destruct t as [|c t]; [discriminate|]. cbn [hd_is drop1] in *. rewrite E. rewrite dropw_cons.
      apply N.eqb_eq in E as ->. reflexivity.
  - cbn [rbind]. destruct (acc_until_nl n (drop1 lbr t)) as [b ->]. cbn [rbind].
    destruct t as [|c t]; [reflexivity|]. cbn [hd_is drop1] in *. rewrite E. reflexivity.
Qed.

(** ** The whole lexer *)
Definition two (c : char) (k2 k1 : kind) (r : text) : lex_result kind * text :=
  if hd_is c r then ((k2, None), tl r) else ((k1, None), r).

Definition dlex (t : text) : lex_result kind * text :=
  match t with
  | [] => ((KUnknown, None), [])
  | c :: r =>
    let single k : lex_result kind * text := ((k, None), r) in
    if (c =? ch "=")%N then two (ch "=") KEqEq KEq r
    else if (c =? ch "~")%N then two (ch "=") KNotEq KUnknown r
    else if (c =? ch "(")%N then single KLParen
    else if (c =? ch ")")%N then single KRParen
    else if (c =? ch "{")%N then single KLBrace
    else if (c =? ch "}")%N then single KRBrace
    else if (c =? lbr)%N then
      if hd_is lbr r || hd_is eqs r then ((KStr, fst (dbrackets r)), snd (dbrackets r))
      else single KLBracket
    else if (c =? rbr)%N then single KRBracket
    else if (c =? ch ",")%N then single KComma
    else if (c =? ch ".")%N then
      if hd_is (ch ".") r then two (ch ".") KTripleDot KDoubleDot (tl r) else single KDot
    else if (c =? ch ";")%N then single KSemicolon
    else if (c =? ch ":")%N then two (ch ":") KDoubleColon KColon r
    else if (c =? ch "#")%N then single KHash
    else if (c =? ch "+")%N then single KPlus
    else if (c =? ch "*")%N then single KAsterisk
    else if (c =? ch "/")%N then single KSlash
    else if (c =? ch "%")%N then single KModulo
    else if (c =? ch "^")%N then single KCaret
    else if (c =? ch ">")%N then two (ch "=") KGtEq KGt r
    else if (c =? ch "<")%N then two (ch "=") KLtEq KLt r
    else if (c =? ch "!")%N then single KBang
    else if (c =? ch "-")%N then
      if hd_is (ch "-") r then ((KComment, None), dcomment (tl r)) else single KMinus
    else if (c =? squote)%N || (c =? dquote)%N then ((KStr, fst (dstr c r)), snd (dstr c r))
    else if is_ident_start c then
      ((kw_kind (c :: takew is_ident_continue r), None), dropw is_ident_continue r)
    else if is_number c then ((KNumber, None), dnumber t)
    else if is_whitespace c then ((KWhitespace, None), dropw is_whitespace r)
    else ((KUnknown, Some "Got an unknown token"%string), r)
  end.

Lemma hd_is_eqb c r : c <> 0%N -> (hd 0%N r =? c)%N = hd_is c r.
Proof.
  intros Hc. destruct r as [|d r]; [|reflexivity]. cbn [hd hd_is]. apply N.eqb_neq. congruence.
Qed.

Lemma two_direct n c k2 k1 x r : c <> 0%N ->
  (let? (d, s) := l_bump_then LAny (src n (x :: r)) in
   if (d =? c)%N then let? s := l_bump (LChr c) s in ok_kind k2 s else ok_kind k1 s)
  = Ok (fst (two c k2 k1 r), src n (snd (two c k2 k1 r))).
Proof.
  intros Hc. rewrite bump_then_any. cbn [rbind]. rewrite hd_is_eqb by exact Hc. unfold two.
  destruct (hd_is c r) eqn:E; [|reflexivity].
  destruct r as [|d r]; [discriminate|]. cbn [hd_is] in E. apply N.eqb_eq in E as ->.
  rewrite bump_chr by exact Hc. reflexivity.
Qed.

Lemma lex_main_direct n c r : blen (c :: r) <= n ->
  lex_main (src n (c :: r)) = Ok (fst (dlex (c :: r)), src n (snd (dlex (c :: r)))).
Proof.
  intros Hn. unfold lex_main, dlex. rewrite src_cur. cbn [hd]. unfold C.
  destruct (c =? ch "=")%N; [apply two_direct; discriminate|].
  destruct (c =? ch "~")%N; [apply two_direct; discriminate|].
  destruct (c =? ch "(")%N; [reflexivity|].
  destruct (c =? ch ")")%N; [reflexivity|].
  destruct (c =? ch "{")%N; [reflexivity|].
  destruct (c =? ch "}")%N; [reflexivity|].
  destruct (c =? lbr)%N.
  { rewrite bump_then_any. cbn [rbind]. rewrite !hd_is_eqb by discriminate.
    assert (Hm : hd_is lbr r || hd_is eqs r = true ->
      lex_multiline_string (src n r) = Ok ((KStr, fst (dbrackets r)), src n (snd (dbrackets r)))).
    { intros H. unfold lex_multiline_string.
      replace (l_peek (LOr [LChr lbr; LChr eqs]) (src n r)) with true.
      - cbn [rassert rbind]. rewrite bracket_enclosed_direct by exact H. reflexivity.
      - unfold l_peek. cbn [l_nth existsb]. unfold s_nth. cbn [src s_rest].
        rewrite orb_false_r. destruct r as [|d r]; [discriminate|]. cbn in *. now rewrite H. }
    destruct (hd_is lbr r); cbn [orb] in *; [apply Hm; reflexivity|].
    destruct (hd_is eqs r); [apply Hm; reflexivity|]. reflexivity. }
  destruct (c =? rbr)%N; [reflexivity|].
  destruct (c =? ch ",")%N; [reflexivity|].
  destruct (c =? ch ".")%N.
  { rewrite bump_then_any. cbn [rbind]. rewrite hd_is_eqb by discriminate.
    destruct (hd_is (ch ".") r) eqn:E; [|reflexivity].
    destruct r as [|d r]; [discriminate|]. cbn [tl].
    exact (two_direct n (ch ".") KTripleDot KDoubleDot d r ltac:(discriminate)). }
  destruct (c =? ch ";")%N; [reflexivity|].
  destruct (c =? ch ":")%N; [apply two_direct; discriminate|].
  destruct (c =? ch "#")%N; [reflexivity|].
  destruct (c =? ch "+")%N; [reflexivity|].
  destruct (c =? ch "*")%N; [reflexivity|].
  destruct (c =? ch "/")%N; [reflexivity|].
  destruct (c =? ch "%")%N; [reflexivity|].
  destruct (c =? ch "^")%N; [reflexivity|].
  destruct (c =? ch ">")%N; [apply two_direct; discriminate|].
  destruct (c =? ch "<")%N; [apply two_direct; discriminate|].
  destruct (c =? ch "!")%N; [reflexivity|].
  destruct (c =? ch "-")%N.
  { rewrite bump_then_any. cbn [rbind]. rewrite hd_is_eqb by discriminate.
    destruct (hd_is (ch "-") r) eqn:E; [|reflexivity].
    destruct r as [|d r]; [discriminate|]. cbn [hd_is] in E. apply N.eqb_eq in E as ->.
    rewrite lex_comment_direct. reflexivity. }
  destruct ((c =? squote)%N || (c =? dquote)%N) eqn:Eq.
  { unfold lex_string. rewrite Eq. cbn [rassert rbind].
    assert (Hd : is_delim c).
    { apply orb_true_iff in Eq as [E|E]; apply N.eqb_eq in E as ->; [left|right]; reflexivity. }
    rewrite bump_chr by (destruct Hd as [-> | ->]; discriminate). cbn [rbind].
    rewrite string_loop_direct by (exact Hd || (unfold loop_fuel; cbn; lia)). reflexivity. }
  destruct (is_ident_start c) eqn:Ei; [rewrite lex_ident_direct by assumption; reflexivity|].
  destruct (is_number c) eqn:En; [rewrite lex_number_direct by exact En; reflexivity|].
  destruct (is_whitespace c) eqn:Ew; [rewrite lex_whitespace_direct by assumption; reflexivity|].
  reflexivity.
Qed.
