(** FirstProofs.v — two runs of the grammar functions (Grammar.v) over inputs with a common beginning: if one of them
    meets an error before it has consumed the common part, the other meets an error as well. *)
From Verif Require Import Base SyntaxKind TokenSet Lexer BindingPowers Parser Grammar ParserTree.
Notation TO := tree_ops.

(** ** Tokens and errors in order *)
Definition hd0 (w : list kind) : kind := nth 0 w KEof.
Definition any : kind -> bool := fun _ => true.
(** The tokens of a tree and its errors ([None]) in order, without the tokens inside errors. *)
Fixpoint fl1 (t : ptree) : list (option kind) :=
  match t with PTok k => [Some k] | PErr _ => [None] | PErrN _ _ => [None] | PNode _ fs => flat_map fl1 fs end.
Definition fl (f : forest) : list (option kind) := flat_map fl1 f.
(** How many tokens come before the first error. *)
Fixpoint cp (l : list (option kind)) : nat := match l with Some _ :: l' => S (cp l') | _ => 0 end.
Definition clean (l : list (option kind)) : Prop := cp l = length l.
Definition dirty (l : list (option kind)) : Prop := cp l < length l.
Lemma cp_le l : cp l <= length l.
Proof. induction l as [|[k|] l IH]; cbn; lia. Qed.
Lemma clean_or l : clean l \/ dirty l.
Proof. pose proof (cp_le l). unfold clean, dirty. lia. Qed.
Lemma clean_not l : clean l -> dirty l -> False.
Proof. unfold clean, dirty. lia. Qed.
Lemma cp_app_clean a b : clean a -> cp (a ++ b) = length a + cp b.
Proof. unfold clean. induction a as [|[k|] a IH]; cbn; intros H; [reflexivity|rewrite IH; lia|discriminate]. Qed.
Lemma cp_app_dirty a b : dirty a -> cp (a ++ b) = cp a.
Proof. unfold dirty. induction a as [|[k|] a IH]; cbn; intros H; [lia|rewrite IH; lia|reflexivity]. Qed.
Lemma cp_mono a b : cp a <= cp (a ++ b).
Proof. destruct (clean_or a) as [H|H]; [rewrite cp_app_clean by exact H; unfold clean in H; lia|rewrite cp_app_dirty by exact H; lia]. Qed.
Lemma dirty_app a b : dirty a -> dirty (a ++ b).
Proof. intros H. unfold dirty in *. rewrite cp_app_dirty by exact H. rewrite app_length. lia. Qed.
Lemma dirty_app_r a b : dirty b -> dirty (a ++ b).
Proof. intros H. destruct (clean_or a) as [C|C]; [|now apply dirty_app]. unfold dirty in *. rewrite cp_app_clean by exact C. rewrite app_length. lia. Qed.
Lemma clean_app a b : clean (a ++ b) <-> clean a /\ clean b.
Proof.
  split.
  - intros H. split; [destruct (clean_or a) as [C|C]; [exact C|destruct (clean_not _ H (dirty_app _ b C))]|destruct (clean_or b) as [C|C]; [exact C|destruct (clean_not _ H (dirty_app_r a _ C))]].
  - intros [A B]. unfold clean in *. rewrite cp_app_clean by exact A. rewrite app_length. lia.
Qed.
Lemma fl_app a b : fl (a ++ b) = fl a ++ fl b.
Proof. apply flat_map_app. Qed.

(** The tokens before the first error. *)
Fixpoint lead (l : list (option kind)) : list kind := match l with Some k :: l' => k :: lead l' | _ => [] end.
Lemma lead_length l : length (lead l) = cp l.
Proof. induction l as [|[k|] l IH]; cbn; congruence. Qed.
Lemma lead_app_clean a b : clean a -> lead (a ++ b) = lead a ++ lead b.
Proof. unfold clean. induction a as [|[k|] a IH]; cbn; intros H; [reflexivity|rewrite IH; [reflexivity|lia]|discriminate]. Qed.
Lemma lead_app_dirty a b : dirty a -> lead (a ++ b) = lead a.
Proof. unfold dirty. induction a as [|[k|] a IH]; cbn; intros H; [lia|rewrite IH; [reflexivity|lia]|reflexivity]. Qed.
Lemma clean_lead g : clean g -> length (lead g) = length g.
Proof. intros C. rewrite lead_length. exact C. Qed.
Lemma ext_len g (r r1 : list kind) : clean g -> r = lead g ++ r1 -> length g + length r1 = length r.
Proof. intros C ->. rewrite app_length, clean_lead by exact C. lia. Qed.

(** ** One run: what it adds, and that it loses no token *)
Definition ext {A} (m : D A) : Prop := forall r F a r1 F1, m (mkDS r F) = Ok (a, mkDS r1 F1) ->
  exists g, fl F1 = fl F ++ g /\ (clean g -> r = lead g ++ r1).
(** A run that starts at a token in [q] consumes it before it meets an error. *)
Definition eats (q : kind -> bool) {A} (m : D A) : Prop := forall r F a r1 F1, clean (fl F) -> q (hd0 r) = true -> m (mkDS r F) = Ok (a, mkDS r1 F1) ->
  length (fl F) < cp (fl F1).
(** ** Two runs over [v ++ k :: x] and [v ++ k :: y]: they do the same and leave a part of [v] and the rest; or both
    meet an error; or the first gets past [k] without an error. *)
Definition twin (q : kind -> bool) {A} (m : D A) : Prop := forall v k x y F a1 r1 F1 a2 r2 F2, clean (fl F) -> q (hd0 (v ++ [k])) = true ->
  m (mkDS (v ++ k :: x) F) = Ok (a1, mkDS r1 F1) -> m (mkDS (v ++ k :: y) F) = Ok (a2, mkDS r2 F2) ->
  (exists v', a1 = a2 /\ F1 = F2 /\ r1 = v' ++ k :: x /\ r2 = v' ++ k :: y) \/ (dirty (fl F1) /\ dirty (fl F2)) \/ length (fl F) + length v < cp (fl F1).
Definition tw (q : kind -> bool) {A} (m : D A) : Prop := ext m /\ twin q m.
Notation T1 := (tw any).

Lemma ext_ret {A} (a : A) : ext (@ret TO A a).
Proof. intros r F b r1 F1 H. cbn [ret tree_ops] in H. unfold tr_ret in H. injection H as -> -> ->. exists []. rewrite app_nil_r. cbn. auto. Qed.
Lemma ext_bind {A B} (m : D A) (f : A -> D B) : ext m -> (forall a, ext (f a)) -> ext (@bind TO A B m f).
Proof.
  intros H1 H2 r F b r2 F2 H. cbn [bind tree_ops] in *. unfold tr_bind in *. destruct (m (mkDS r F)) as [[a [r1 F1]]| |] eqn:E; cbn [rbind fst snd] in H; try discriminate H.
  destruct (H1 _ _ _ _ _ E) as (g1 & E1 & L1). destruct (H2 _ _ _ _ _ _ H) as (g2 & E2 & L2). exists (g1 ++ g2). split; [now rewrite E2, E1, app_assoc|].
  intros C. apply clean_app in C as [C1 C2]. rewrite lead_app_clean by exact C1. rewrite (L1 C1), (L2 C2). apply app_assoc.
Qed.
Lemma twin_bind q {A B} (m : D A) (f : A -> D B) : ext m -> twin q m -> (forall a, ext (f a)) -> (forall a, twin any (f a)) -> twin q (@bind TO A B m f).
Proof.
  intros X1 H1 X2 H2 v k x y F b1 r1 F1 b2 r2 F2 C Q E1 E2. cbn [bind tree_ops] in *. unfold tr_bind in *.
  destruct (m (mkDS (v ++ k :: x) F)) as [[a1 [s1 G1]]| |] eqn:M1; cbn [rbind fst snd] in E1; try discriminate E1.
  destruct (m (mkDS (v ++ k :: y) F)) as [[a2 [s2 G2]]| |] eqn:M2; cbn [rbind fst snd] in E2; try discriminate E2.
  destruct (X1 _ _ _ _ _ M1) as (g1 & Eg1 & L1). destruct (X2 _ _ _ _ _ _ E1) as (h1 & Eh1 & _). destruct (X2 _ _ _ _ _ _ E2) as (h2 & Eh2 & _).
  destruct (H1 _ _ _ _ _ _ _ _ _ _ _ C Q M1 M2) as [(v' & -> & -> & -> & ->)|[[D1 D2]|L]].
  - destruct (clean_or (fl G2)) as [C1|D1].
    + destruct (H2 a2 _ _ _ _ _ _ _ _ _ _ _ C1 eq_refl E1 E2) as [S|[S|S]]; [now left|now right; left|right; right].
      rewrite Eg1 in S, C1. apply clean_app in C1 as [_ C1]. specialize (L1 C1). apply (ext_len _ _ _ C1) in L1. rewrite app_length in S. rewrite !app_length in L1. cbn [length] in L1. lia.
    + right; left. rewrite Eh1, Eh2. split; now apply dirty_app.
  - right; left. rewrite Eh1, Eh2. split; now apply dirty_app.
  - right; right. rewrite Eh1. pose proof (cp_mono (fl G1) h1). lia.
Qed.
Lemma tw_bind q {A B} (m : D A) (f : A -> D B) : tw q m -> (forall a, T1 (f a)) -> tw q (@bind TO A B m f).
Proof. intros [X1 H1] H2. split; [apply ext_bind; [exact X1|intros a; apply H2]|apply twin_bind; auto; intros a; apply H2]. Qed.
Lemma tw_any q {A} (m : D A) : T1 m -> tw q m.
Proof. intros [X H]. split; [exact X|]. intros v k x y F a1 r1 F1 a2 r2 F2 C _. exact (H _ _ _ _ _ _ _ _ _ _ _ C eq_refl). Qed.
Lemma tw_ret q {A} (a : A) : tw q (@ret TO A a).
Proof.
  split; [apply ext_ret|]. intros v k x y F a1 r1 F1 a2 r2 F2 _ _ E1 E2. cbn [ret tree_ops] in *. unfold tr_ret in *. injection E1 as <- <- <-. injection E2 as <- <- <-. left. exists v. auto.
Qed.
Lemma tw_out q {A} : tw q (@out TO A).
Proof. split; [intros r F b r1 F1 H; discriminate H|]. intros v k x y F a1 r1 F1 a2 r2 F2 _ _ E1. discriminate E1. Qed.
Lemma tw_panic q {A} : tw q (@panic TO A).
Proof. split; [intros r F b r1 F1 H; discriminate H|]. intros v k x y F a1 r1 F1 a2 r2 F2 _ _ E1. discriminate E1. Qed.
Lemma ext_nth n : ext (@p_nth TO n).
Proof. intros r F b r1 F1 H. cbn [p_nth tree_ops] in H. unfold tr_nth in H. injection H as _ -> ->. exists []. rewrite app_nil_r. cbn. auto. Qed.
Lemma hd_same v (k : kind) x y : nth 0 (v ++ k :: x) KEof = nth 0 (v ++ k :: y) KEof.
Proof. destruct v; reflexivity. Qed.
Lemma tw_current q : tw q (@p_current TO).
Proof.
  split; [apply ext_nth|]. intros v k x y F a1 r1 F1 a2 r2 F2 _ _ E1 E2. unfold p_current in *. cbn [p_nth tree_ops] in *. unfold tr_nth in *. cbn [ds_rem] in *.
  injection E1 as <- <- <-. injection E2 as <- <- <-. left. exists v. split; [apply hd_same|auto].
Qed.
Lemma ext_adv : ext (@p_adv TO).
Proof.
  intros r F a r1 F1 H. cbn [p_adv tree_ops] in *. unfold tr_adv in *. cbn [ds_rem ds_for] in *. destruct r as [|k r]; [discriminate H|]. destruct (kind_eqb k KEof) eqn:E; [discriminate H|].
  injection H as <- <- <-. exists [Some k]. split; [apply fl_app|]. reflexivity.
Qed.
Lemma eats_adv q : eats q (@p_adv TO).
Proof.
  intros r F a r1 F1 C _ H. cbn [p_adv tree_ops] in *. unfold tr_adv in *. cbn [ds_rem ds_for] in *. destruct r as [|k r]; [discriminate H|]. destruct (kind_eqb k KEof) eqn:E; [discriminate H|].
  injection H as <- <- <-. rewrite fl_app, cp_app_clean by exact C. cbn. lia.
Qed.
Lemma tw_adv : T1 (@p_adv TO).
Proof.
  split; [apply ext_adv|]. intros v k x y F a1 r1 F1 a2 r2 F2 C _ E1 E2. destruct v as [|u v].
  - right; right. pose proof (eats_adv any _ _ _ _ _ C eq_refl E1). cbn [length]. lia.
  - left. cbn [p_adv tree_ops] in *. unfold tr_adv in *. cbn [ds_rem ds_for app] in *. destruct (kind_eqb u KEof); [discriminate E1|]. injection E1 as <- <- <-. injection E2 as <- <- <-. exists v. auto.
Qed.
Lemma tw_error e : T1 (@p_push_error TO e).
Proof.
  split.
  - intros r F a r1 F1 H. cbn [p_push_error tree_ops] in *. unfold tr_error in *. cbn [ds_rem ds_for] in *. injection H as <- <- <-. exists [None]. split; [apply fl_app|]. intros X. discriminate X.
  - intros v k x y F a1 r1 F1 a2 r2 F2 C _ E1 E2. cbn [p_push_error tree_ops] in *. unfold tr_error in *. cbn [ds_rem ds_for] in *. injection E1 as <- <- <-. injection E2 as <- <- <-. left. exists v. auto.
Qed.
Lemma fl_node F k f : fl (F ++ [PNode k f]) = fl F ++ fl f.
Proof. rewrite fl_app. unfold fl at 2. cbn [flat_map fl1]. now rewrite app_nil_r. Qed.
Lemma ext_node_by (m : D kind) : ext m -> ext (@node_by TO m).
Proof.
  intros H r F a r1 F1 E. cbn [node_by tree_ops] in *. unfold tr_node in *. cbn [ds_rem ds_for] in *. destruct (m (mkDS r [])) as [[k [r2 F2]]| |] eqn:E1; cbn [rbind] in E; try discriminate E.
  cbn [ds_rem ds_for] in E. injection E as <- <- <-. destruct (H _ _ _ _ _ E1) as (g & Eg & L). exists g. cbn [fl flat_map app] in Eg. rewrite fl_node, Eg. auto.
Qed.
Lemma clean_nil : clean (fl []).
Proof. reflexivity. Qed.
Lemma tw_node_by q (m : D kind) : tw q m -> tw q (@node_by TO m).
Proof.
  intros [X H]. split; [now apply ext_node_by|]. intros v k x y F a1 r1 F1 a2 r2 F2 C Q E1 E2. cbn [node_by tree_ops] in *. unfold tr_node in *. cbn [ds_rem ds_for] in *.
  destruct (m (mkDS (v ++ k :: x) [])) as [[k1 [s1 G1]]| |] eqn:M1; cbn [rbind] in E1; try discriminate E1. cbn [ds_rem ds_for] in E1. injection E1 as <- <- <-.
  destruct (m (mkDS (v ++ k :: y) [])) as [[k2 [s2 G2]]| |] eqn:M2; cbn [rbind] in E2; try discriminate E2. cbn [ds_rem ds_for] in E2. injection E2 as <- <- <-.
  destruct (H _ _ _ _ _ _ _ _ _ _ _ clean_nil Q M1 M2) as [(v' & -> & -> & -> & ->)|[[D1 D2]|L]].
  - left. exists v'. auto.
  - right; left. rewrite !fl_node. split; now apply dirty_app_r.
  - right; right. rewrite fl_node, cp_app_clean by exact C. cbn [fl flat_map length] in L. lia.
Qed.
Lemma fl_pre F i kt ft pre k f : skipn i F = PNode kt ft :: pre -> fl (firstn i F ++ [PNode k (PNode kt ft :: pre ++ f)]) = fl F ++ fl f.
Proof.
  intros E. rewrite <- (firstn_skipn i F) at 2. rewrite E, !fl_app, <- app_assoc. f_equal. unfold fl. cbn [flat_map fl1]. rewrite app_nil_r, flat_map_app, <- app_assoc. reflexivity.
Qed.
Lemma ext_pre_by i (m : D kind) : ext m -> ext (@pre_node_by TO i m).
Proof.
  intros H r F a r1 F1 E. cbn [pre_node_by tree_ops] in *. unfold tr_pre in *. cbn [ds_rem ds_for] in *. destruct (skipn i F) as [|[| | |kt ft] pre] eqn:SK; try discriminate E.
  destruct (m (mkDS r [])) as [[k [r2 F2]]| |] eqn:E1; cbn [rbind] in E; try discriminate E. cbn [ds_rem ds_for] in E. injection E as <- <- <-. destruct (H _ _ _ _ _ E1) as (g & Eg & L). exists g.
  cbn [fl flat_map app] in Eg. rewrite (fl_pre _ _ _ _ _ _ _ SK), Eg. auto.
Qed.
Lemma tw_pre_by q i (m : D kind) : tw q m -> tw q (@pre_node_by TO i m).
Proof.
  intros [X H]. split; [now apply ext_pre_by|]. intros v k x y F a1 r1 F1 a2 r2 F2 C Q E1 E2. cbn [pre_node_by tree_ops] in *. unfold tr_pre in *. cbn [ds_rem ds_for] in *.
  destruct (skipn i F) as [|[| | |kt ft] pre] eqn:SK; try discriminate E1.
  destruct (m (mkDS (v ++ k :: x) [])) as [[k1 [s1 G1]]| |] eqn:M1; cbn [rbind] in E1; try discriminate E1. cbn [ds_rem ds_for] in E1. injection E1 as <- <- <-.
  destruct (m (mkDS (v ++ k :: y) [])) as [[k2 [s2 G2]]| |] eqn:M2; cbn [rbind] in E2; try discriminate E2. cbn [ds_rem ds_for] in E2. injection E2 as <- <- <-.
  destruct (H _ _ _ _ _ _ _ _ _ _ _ clean_nil Q M1 M2) as [(v' & -> & -> & -> & ->)|[[D1 D2]|L]].
  - left. exists v'. auto.
  - right; left. rewrite !(fl_pre _ _ _ _ _ _ _ SK). split; now apply dirty_app_r.
  - right; right. rewrite (fl_pre _ _ _ _ _ _ _ SK), cp_app_clean by exact C. cbn [fl flat_map length] in L. lia.
Qed.
(** Whatever happens inside an error node, it is an error. *)
Lemma tw_err_node (m : D perr) : T1 (@err_node TO m).
Proof.
  assert (K : forall r F a r1 F1, @err_node TO m (mkDS r F) = Ok (a, mkDS r1 F1) -> fl F1 = fl F ++ [None]).
  { intros r F a r1 F1 E. cbn [err_node tree_ops] in *. unfold tr_err_node in *. cbn [ds_rem ds_for] in *. destruct (m (mkDS r [])) as [[k [r2 F2]]| |] eqn:E1; cbn [rbind] in E; try discriminate E.
    cbn [ds_rem ds_for] in E. injection E as <- <- <-. apply fl_app. }
  split.
  - intros r F a r1 F1 E. exists [None]. split; [exact (K _ _ _ _ _ E)|]. intros C. discriminate C.
  - intros v k x y F a1 r1 F1 a2 r2 F2 C _ E1 E2. right; left. rewrite (K _ _ _ _ _ E1), (K _ _ _ _ _ E2). split; apply dirty_app_r; cbv; lia.
Qed.
Lemma tw_bind_ret q {A B} (m : D A) (f : A -> B) : tw q m -> tw q (@bind TO A B m (fun a => @ret TO B (f a))).
Proof. intros H. apply tw_bind; [exact H|]. intros a. apply tw_ret. Qed.
Lemma tw_node q {A} k (m : D A) : tw q m -> tw q (@node TO A k m).
Proof. intros H. unfold node. apply tw_node_by, (tw_bind_ret q m (fun _ => k)). exact H. Qed.
Lemma tw_node_ q {A} k (m : D A) : tw q m -> tw q (@node_ TO A k m).
Proof. intros H. unfold node_. apply (tw_bind_ret q (@node TO A k m) (fun _ => tt)). now apply tw_node. Qed.
Lemma tw_pre q {A} i k (m : D A) : tw q m -> tw q (@pre_node TO A i k m).
Proof. intros H. unfold pre_node. apply tw_pre_by, (tw_bind_ret q m (fun _ => k)). exact H. Qed.
Lemma tw_loop (b : D bool) : T1 b -> forall n, T1 (@p_loop TO n b).
Proof. intros H. induction n as [|n IH]; cbn [p_loop]; [apply tw_out|]. apply tw_bind; [exact H|]. intros [|]; [exact IH|apply tw_ret]. Qed.
Lemma tw_while (c : D bool) (b : D unit) n : T1 c -> T1 b -> T1 (@p_while TO n c b).
Proof. intros Hc Hb. unfold p_while. apply tw_loop. apply tw_bind; [exact Hc|]. intros [|]; [|apply tw_ret]. apply tw_bind; [exact Hb|]. intros a. apply tw_ret. Qed.
Lemma hd_snoc v (k : kind) x : nth 0 (v ++ k :: x) KEof = hd0 (v ++ [k]).
Proof. destruct v; reflexivity. Qed.
Lemma tw_cur {A} (f : kind -> D A) : (forall k, tw (kind_eqb k) (f k)) -> T1 (@bind TO _ _ (@p_current TO) f).
Proof.
  intros H. split; [apply ext_bind; [apply ext_nth|intros a; apply H]|]. intros v k x y F a1 r1 F1 a2 r2 F2 C _ E1 E2. unfold p_current in *. cbn [bind tree_ops p_nth] in *. unfold tr_bind, tr_nth in *. cbn [rbind fst snd ds_rem] in *.
  rewrite hd_snoc in E1, E2. destruct (H (hd0 (v ++ [k]))) as [_ K]. exact (K _ _ _ _ _ _ _ _ _ _ _ C (kind_eqb_refl _) E1 E2).
Qed.
Lemma tw_head a {A} (f : bool -> D A) : (forall k, tw (kind_eqb k) (f (pacc_test a k))) -> T1 (@bind TO _ _ (@p_at TO a) f).
Proof.
  intros H. split.
  - intros r F b r1 F1 E. unfold p_at, p_current in *. cbn [bind tree_ops p_nth ret] in *. unfold tr_bind, tr_nth, tr_ret in *. cbn [rbind fst snd ds_rem] in *. exact (proj1 (H (nth 0 r KEof)) _ _ _ _ _ E).
  - intros v k x y F a1 r1 F1 a2 r2 F2 C _ E1 E2. unfold p_at, p_current in *. cbn [bind tree_ops p_nth ret] in *. unfold tr_bind, tr_nth, tr_ret in *. cbn [rbind fst snd ds_rem] in *.
    rewrite hd_snoc in E1, E2. destruct (H (hd0 (v ++ [k]))) as [_ K]. exact (K _ _ _ _ _ _ _ _ _ _ _ C (kind_eqb_refl _) E1 E2).
Qed.
(** Looking one further, when what follows consumes the next token. *)
Lemma tw_peek q {A} (f : kind -> D A) : (forall k, T1 (f k)) -> (forall k, eats q (f k)) -> tw q (@bind TO _ _ (@p_nth TO 1) f).
Proof.
  intros H HX. split; [apply ext_bind; [apply ext_nth|intros a; apply H]|]. intros v k x y F a1 r1 F1 a2 r2 F2 C Q E1 E2. cbn [bind tree_ops p_nth] in *. unfold tr_bind, tr_nth in *. cbn [rbind fst snd ds_rem] in *.
  destruct v as [|u v].
  - right; right. cbn [length app] in *. assert (Q' : q (hd0 (k :: x)) = true) by exact Q. pose proof (HX _ _ _ _ _ _ C Q' E1). lia.
  - cbn [app nth] in E1, E2. rewrite hd_snoc in E1, E2. destruct (H (hd0 (v ++ [k]))) as [_ K]. exact (K (u :: v) _ _ _ _ _ _ _ _ _ _ C eq_refl E1 E2).
Qed.
Lemma tw_drop q {A} (m : D A) : tw q m -> tw q (@bind TO _ _ (@p_nth TO 1) (fun _ => m)).
Proof.
  intros [X H]. split; [apply ext_bind; [apply ext_nth|intros a; exact X]|]. intros v k x y F a1 r1 F1 a2 r2 F2 C Q E1 E2. exact (H _ _ _ _ _ _ _ _ _ _ _ C Q E1 E2).
Qed.

(** ** Consuming *)
Lemma eats_bind q {A B} (m : D A) (f : A -> D B) : eats q m -> (forall a, ext (f a)) -> eats q (@bind TO A B m f).
Proof.
  intros H HS r F b r1 F1 C Q E. cbn [bind tree_ops] in *. unfold tr_bind in *. destruct (m (mkDS r F)) as [[a [s1 G1]]| |] eqn:E1; cbn [rbind fst snd] in E; try discriminate E.
  pose proof (H _ _ _ _ _ C Q E1) as X. destruct (HS _ _ _ _ _ _ E) as (g & Eg & _). rewrite Eg. pose proof (cp_mono (fl G1) g). lia.
Qed.
Lemma eats_skip q b {B} (f : unit -> D B) : eats q (f tt) -> eats q (@bind TO _ B (@passert TO b) f).
Proof.
  intros H r F a r1 F1 C Q E. cbn [bind tree_ops] in *. unfold tr_bind, passert in *. destruct b; cbn [ret panic tree_ops] in E; unfold tr_ret, tr_panic in E; cbn [rbind fst snd] in E; [|discriminate E]. exact (H _ _ _ _ _ C Q E).
Qed.
Lemma eats_at k a {A} (f : bool -> D A) : eats (kind_eqb k) (f (pacc_test a k)) -> eats (kind_eqb k) (@bind TO _ _ (@p_at TO a) f).
Proof.
  intros H r F b r1 F1 C Q E. unfold p_at, p_current in E. cbn [bind tree_ops p_nth ret] in E. unfold tr_bind, tr_nth, tr_ret in E. cbn [rbind fst snd ds_rem] in E.
  apply kind_eqb_eq in Q as Q'. unfold hd0 in Q'. rewrite <- Q' in E. exact (H _ _ _ _ _ C Q E).
Qed.
Lemma eats_cur k {A} (f : kind -> D A) : eats (kind_eqb k) (f k) -> eats (kind_eqb k) (@bind TO _ _ (@p_current TO) f).
Proof.
  intros H r F b r1 F1 C Q E. unfold p_current in E. cbn [bind tree_ops p_nth ret] in E. unfold tr_bind, tr_nth, tr_ret in E. cbn [rbind fst snd ds_rem] in E.
  apply kind_eqb_eq in Q as Q'. unfold hd0 in Q'. rewrite <- Q' in E. exact (H _ _ _ _ _ C Q E).
Qed.
Lemma eats_out q {A} : eats q (@out TO A).
Proof. intros r F b r1 F1 _ _ H. discriminate H. Qed.
Lemma eats_node_by q (m : D kind) : eats q m -> eats q (@node_by TO m).
Proof.
  intros H r F a r1 F1 C Q E. cbn [node_by tree_ops] in *. unfold tr_node in *. cbn [ds_rem ds_for] in *. destruct (m (mkDS r [])) as [[k [s1 G1]]| |] eqn:E1; cbn [rbind] in E; try discriminate E.
  cbn [ds_rem ds_for] in E. injection E as <- <- <-. pose proof (H _ _ _ _ _ clean_nil Q E1) as X. rewrite fl_node, cp_app_clean by exact C. cbn [fl flat_map length] in X. lia.
Qed.
Lemma eats_node q {A} k (m : D A) : eats q m -> eats q (@node TO A k m).
Proof. intros H. unfold node. apply eats_node_by, eats_bind; [exact H|]. intros a. apply ext_ret. Qed.
Lemma eats_node_ q {A} k (m : D A) : eats q m -> eats q (@node_ TO A k m).
Proof. intros H. unfold node_. apply eats_bind; [now apply eats_node|]. intros a. apply ext_ret. Qed.
Lemma ext_passert b : ext (@passert TO b).
Proof. unfold passert. destruct b; [apply ext_ret|intros r F a r1 F1 H; discriminate H]. Qed.
Lemma eats_bump a q : eats q (@p_bump TO a).
Proof.
  intros r F b r1 F1 C _ E. unfold p_bump, p_accept, p_at, p_current in E. cbn [bind tree_ops p_nth ret p_adv] in E. unfold tr_bind, tr_nth, tr_ret, tr_adv in E. cbn [rbind fst snd ds_rem ds_for] in E.
  destruct (pacc_test a (nth 0 r KEof)); [|cbn [rbind fst snd] in E; discriminate E]. destruct r as [|k r]; [discriminate E|]. cbn [ds_rem ds_for] in E. destruct (kind_eqb k KEof); [discriminate E|]. cbn [rbind fst snd passert] in E.
  cbn [ret tree_ops] in E. unfold tr_ret in E. injection E as <- <- <-. rewrite fl_app, cp_app_clean by exact C. cbn. lia.
Qed.
Lemma eats_guard q a {B} (f : unit -> D B) : eats q (f tt) -> eats q (@bind TO _ B (@bind TO _ _ (@p_at TO a) (fun b => @passert TO b)) f).
Proof.
  intros H r F b r1 F1 C Q E. unfold p_at, p_current in E. cbn [bind tree_ops p_nth ret] in E. unfold tr_bind, tr_nth, tr_ret in E. cbn [rbind fst snd ds_rem] in E.
  unfold passert in E. destruct (pacc_test a (nth 0 r KEof)); cbn [ret panic tree_ops] in E; unfold tr_ret, tr_panic in E; cbn [rbind fst snd] in E; [|discriminate E]. exact (H _ _ _ _ _ C Q E).
Qed.
Lemma tw_passert b : T1 (@passert TO b).
Proof. unfold passert. destruct b; [apply tw_ret|apply tw_panic]. Qed.
Lemma tw_at a : T1 (@p_at TO a).
Proof. unfold p_at. apply tw_bind; [apply tw_current|]. intros k. apply tw_ret. Qed.
Lemma tw_accept a : T1 (@p_accept TO a).
Proof. unfold p_accept. apply tw_bind; [apply tw_at|]. intros [|]; [|apply tw_ret]. apply tw_bind; [apply tw_adv|]. intros _. apply tw_ret. Qed.
Lemma tw_bump a : T1 (@p_bump TO a).
Proof. unfold p_bump. apply tw_bind; [apply tw_accept|]. intros b. apply tw_passert. Qed.
Lemma tw_current1 : T1 (@p_current TO).
Proof. apply tw_current. Qed.
Create HintDb tw.
#[export] Hint Resolve tw_passert tw_current1 tw_at tw_accept tw_bump tw_error tw_adv : tw.
Ltac tw1 := first
  [ lazymatch goal with
    | |- tw any (@ret _ _ _) => apply tw_ret
    | |- tw any (@panic _ _) => apply tw_panic
    | |- tw any (@out _ _) => apply tw_out
    | |- tw any (@bind _ _ _ _ _) => apply tw_bind; [|intros ?]
    | |- tw any (@node_ _ _ _ _) => apply tw_node_
    | |- tw any (@node _ _ _ _) => apply tw_node
    | |- tw any (@pre_node _ _ _ _ _) => apply tw_pre
    | |- tw any (@pre_node_by _ _ _) => apply tw_pre_by
    | |- tw any (@node_by _ _) => apply tw_node_by
    | |- tw any (@err_node _ _) => apply tw_err_node
    | |- tw any (@p_while _ _ _ _) => apply tw_while
    | |- tw any (@p_loop _ _ _) => apply tw_loop
    | |- tw any (if ?b then _ else _) => destruct b
    | |- tw any (match ?o with Some _ => _ | None => _ end) => destruct o
    | |- tw any (let (_, _) := ?o in _) => destruct o
    | |- tw any (match ?o with pair _ _ => _ end) => destruct o
    end
  | solve [auto 3 with tw nocore] ].
Ltac tws := repeat tw1.
Ltac exts := lazymatch goal with |- ext ?m => cut (tw any m); [intros [X _]; exact X|tws] end.
Lemma tw_err_recover m s : T1 (@p_err_recover TO m s).
Proof. unfold p_err_recover, p_error. tws. Qed.
Lemma tw_err_and_bump m : T1 (@p_err_and_bump TO m).
Proof. unfold p_err_and_bump. apply tw_err_recover. Qed.
Lemma tw_err_until n m s : T1 (@p_err_until TO n m s).
Proof. unfold p_err_until. cbv zeta. tws. Qed.
Lemma tw_bump_ts s : T1 (@p_bump_ts TO s).
Proof. unfold p_bump_ts. tws. Qed.
Lemma tw_expect k : T1 (@p_expect TO k).
Proof. unfold p_expect. tws. Qed.
Lemma tw_msg m : T1 (@p_error TO m).
Proof. apply tw_error. Qed.
#[export] Hint Resolve tw_err_recover tw_err_and_bump tw_err_until tw_bump_ts tw_expect tw_msg : tw.
Lemma tw_name_unchecked : T1 (@name_unchecked TO).
Proof. unfold name_unchecked. tws. Qed.
#[export] Hint Resolve tw_name_unchecked : tw.
Lemma tw_name_r s : T1 (@name_r TO s).
Proof. unfold name_r. tws. Qed.
Lemma tw_name_ref_r s : T1 (@name_ref_r TO s).
Proof. unfold name_ref_r, name_ref_unchecked. tws. Qed.
#[export] Hint Resolve tw_name_r tw_name_ref_r : tw.
Lemma tw_name : T1 (@name TO).
Proof. unfold name. tws. Qed.
Lemma tw_name_ref : T1 (@name_ref TO).
Proof. unfold name_ref. tws. Qed.
#[export] Hint Resolve tw_name tw_name_ref : tw.
Lemma tw_multi_name n s v : T1 (@multi_name_r TO n s v).
Proof. unfold multi_name_r. cbv zeta. tws. Qed.
#[export] Hint Resolve tw_multi_name : tw.
Lemma tw_params n : T1 (@param_list TO n).
Proof. unfold param_list. tws. Qed.
Lemma tw_literal : T1 (@literal TO).
Proof. unfold literal. tws. Qed.
Lemma tw_table_sep : T1 (@table_sep TO).
Proof. unfold table_sep. tws. Qed.
Lemma tw_table_correct n : T1 (@table_correct TO n).
Proof. unfold table_correct. tws. Qed.
Lemma tw_dot l : T1 (@dot_expr TO l).
Proof. unfold dot_expr. tws. Qed.
Lemma tw_goto : T1 (@goto_stmt TO).
Proof. unfold goto_stmt. tws. Qed.
Lemma tw_label : T1 (@label_stmt TO).
Proof. unfold label_stmt, label_delim. tws. Qed.
Lemma tw_break : T1 (@break_stmt TO).
Proof. unfold break_stmt. tws. Qed.
#[export] Hint Resolve tw_params tw_literal tw_table_sep tw_table_correct tw_dot tw_goto tw_label tw_break : tw.

(** ** The name of a function: here the token after the next one decides. *)
(** A run that starts at a token in [q] meets an error. *)
Definition fails (q : kind -> bool) {A} (m : D A) : Prop := forall r F a r1 F1, q (hd0 r) = true -> m (mkDS r F) = Ok (a, mkDS r1 F1) -> dirty (fl F1).
Lemma fails_bind q {A B} (m : D A) (f : A -> D B) : fails q m -> (forall a, ext (f a)) -> fails q (@bind TO A B m f).
Proof.
  intros H HS r F b r1 F1 Q E. cbn [bind tree_ops] in *. unfold tr_bind in *. destruct (m (mkDS r F)) as [[a [s1 G1]]| |] eqn:E1; cbn [rbind fst snd] in E; try discriminate E.
  pose proof (H _ _ _ _ _ Q E1) as X. destruct (HS _ _ _ _ _ _ E) as (g & Eg & _). rewrite Eg. now apply dirty_app.
Qed.
Lemma fails_recover m s q : fails q (@p_err_recover TO m s).
Proof.
  intros r F a r1 F1 _ E. unfold p_err_recover, p_error, p_at, p_current in E. cbn [bind tree_ops p_nth ret p_push_error] in E. unfold tr_bind, tr_nth, tr_ret in E. cbn [rbind fst snd ds_rem] in E.
  assert (K : forall e r F a r1 F1, tr_error e (mkDS r F) = Ok (a, mkDS r1 F1) -> dirty (fl F1)).
  { clear. intros e r F a r1 F1 E. unfold tr_error in E. injection E as <- <- <-. cbn [ds_for]. rewrite fl_app. apply dirty_app_r. cbv. lia. }
  destruct (kind_eqb (nth 0 r KEof) KEndKw); [exact (K _ _ _ _ _ _ E)|]. cbn [ds_rem] in E. destruct (pacc_test (PSet s) (nth 0 r KEof)); [exact (K _ _ _ _ _ _ E)|].
  cbn [err_node tree_ops] in E. unfold tr_err_node in E. cbn [ds_rem ds_for] in E. match type of E with rbind ?b _ = _ => destruct b as [[e [r2 F2]]| |]; cbn [rbind] in E; try discriminate E end.
  cbn [ds_rem ds_for] in E. injection E as <- <- <-. rewrite fl_app. apply dirty_app_r. cbv. lia.
Qed.
Definition no_ident : kind -> bool := fun k => negb (kind_eqb k KIdent).
Lemma at_run a r F : @p_at TO a (mkDS r F) = Ok (pacc_test a (hd0 r), mkDS r F).
Proof. reflexivity. Qed.
Lemma fails_name_r s : fails no_ident (@name_r TO s).
Proof.
  intros r F a r1 F1 Q E. unfold name_r in E. cbn [bind tree_ops] in E. unfold tr_bind in E. rewrite at_run in E. cbn [rbind fst snd pacc_test] in E. unfold no_ident in Q. apply negb_true_iff in Q. rewrite Q in E. exact (fails_recover _ _ any _ _ _ _ _ eq_refl E).
Qed.
Lemma fails_name_ref_r s : fails no_ident (@name_ref_r TO s).
Proof.
  intros r F a r1 F1 Q E. unfold name_ref_r in E. cbn [bind tree_ops] in E. unfold tr_bind in E. rewrite at_run in E. cbn [rbind fst snd pacc_test] in E. unfold no_ident in Q. apply negb_true_iff in Q. rewrite Q in E. exact (fails_recover _ _ any _ _ _ _ _ eq_refl E).
Qed.
Lemma eats_name_r s : eats (kind_eqb KIdent) (@name_r TO s).
Proof. unfold name_r. apply eats_at. cbn [pacc_test kind_eqb]. unfold name_unchecked. apply eats_node_, eats_bump. Qed.
Lemma eats_name_ref_r s : eats (kind_eqb KIdent) (@name_ref_r TO s).
Proof. unfold name_ref_r. apply eats_at. cbn [pacc_test kind_eqb]. unfold name_ref_unchecked. apply eats_node_, eats_bump. Qed.
Definition fname_rec : token_set := ts_union (ts_new [KLParen]) STMT_RECOVERY.
Definition fname_tail (c : nat) : D unit :=
  @pre_node_by TO c (b <- @p_at TO (PKind KColon) ;; if b then @p_bump TO (PKind KColon) ;; @name_r TO fname_rec ;; @ret TO _ KFunctionMethod
      else @name_r TO fname_rec ;; @ret TO _ KFunctionStatic) ;; @ret TO _ tt.
Definition fname_path (n : nat) : D unit := c <- @index_path TO n ;; fname_tail c.
Lemma tw_fname_tail c : T1 (fname_tail c).
Proof. unfold fname_tail. tws. Qed.
Lemma tail_run c r F a r1 F1 : fname_tail c (mkDS r F) = Ok (a, mkDS r1 F1) ->
  exists kt G, (b <- @p_at TO (PKind KColon) ;; if b then @p_bump TO (PKind KColon) ;; @name_r TO fname_rec ;; @ret TO _ KFunctionMethod else @name_r TO fname_rec ;; @ret TO _ KFunctionStatic) (mkDS r []) = Ok (kt, mkDS r1 G) /\ fl F1 = fl F ++ fl G.
Proof.
  intros E. unfold fname_tail in E. cbn [bind ret tree_ops pre_node_by] in E. unfold tr_bind at 1 in E. unfold tr_pre in E. cbn [ds_rem ds_for] in E. destruct (skipn c F) as [|[| | |kt ft] pre] eqn:SK; try discriminate E.
  match type of E with context [rbind (tr_bind ?p ?q ?w) _] => destruct (tr_bind p q w) as [[kk [s G]]| |] eqn:B; cbn [rbind fst snd] in E; try discriminate E end. unfold tr_ret in E. cbn [ds_rem ds_for] in E.
  assert (E' : mkDS s (firstn c F ++ [PNode kk (PNode kt ft :: pre ++ G)]) = mkDS r1 F1) by congruence. injection E' as <- <-.
  exists kk, G. split; [exact B|]. exact (fl_pre _ _ _ _ _ _ _ SK).
Qed.
Lemma tail_ident c x F a r1 F1 : clean (fl F) -> fname_tail c (mkDS (KIdent :: x) F) = Ok (a, mkDS r1 F1) -> length (fl F) < cp (fl F1).
Proof.
  intros C E. destruct (tail_run _ _ _ _ _ _ E) as (kt & G & B & ->). rewrite cp_app_clean by exact C.
  assert (X : eats (kind_eqb KIdent) (b <- @p_at TO (PKind KColon) ;; if b then @p_bump TO (PKind KColon) ;; @name_r TO fname_rec ;; @ret TO _ KFunctionMethod else @name_r TO fname_rec ;; @ret TO _ KFunctionStatic)).
  { apply eats_at. cbn [pacc_test kind_eqb]. apply eats_bind; [apply eats_name_r|intros _; apply ext_ret]. }
  pose proof (X (KIdent :: x) _ _ _ _ clean_nil eq_refl B) as L. cbn [fl flat_map length] in L. lia.
Qed.
Lemma tail_fails c k x F a r1 F1 : k <> KIdent -> hd0 x = KLParen -> fname_tail c (mkDS (k :: x) F) = Ok (a, mkDS r1 F1) -> dirty (fl F1).
Proof.
  intros N P E. destruct (tail_run _ _ _ _ _ _ E) as (kt & G & B & ->). apply dirty_app_r. cbn [bind tree_ops] in B. unfold tr_bind at 1 in B. rewrite at_run in B. cbn [rbind fst snd pacc_test hd0 nth] in B.
  assert (Xr : forall kt0 : kind, ext (@ret TO kind kt0)) by (intros; apply ext_ret). destruct (kind_eqb k KColon) eqn:EK.
  - unfold tr_bind at 1 in B. destruct (@p_bump TO (PKind KColon) (mkDS (k :: x) [])) as [[u [s1 G1]]| |] eqn:EB; cbn [rbind fst snd] in B; try discriminate B.
    assert (S1 : s1 = x).
    { unfold p_bump, p_accept, p_at, p_current in EB. cbn [bind tree_ops p_nth ret p_adv] in EB. unfold tr_bind, tr_nth, tr_ret, tr_adv in EB. cbn [rbind fst snd ds_rem ds_for nth pacc_test] in EB. rewrite EK in EB. cbn [ds_rem] in EB.
      destruct (kind_eqb k KEof); cbn [rbind fst snd] in EB; [discriminate EB|]. cbn [passert ret tree_ops] in EB. unfold tr_ret in EB. now injection EB as _ <- _. }
    subst s1. refine (fails_bind no_ident (@name_r TO fname_rec) _ (fails_name_r _) (fun _ => Xr _) _ _ _ _ _ _ B). rewrite P. reflexivity.
  - refine (fails_bind no_ident (@name_r TO fname_rec) _ (fails_name_r _) (fun _ => Xr _) _ _ _ _ _ _ B). unfold no_ident. cbn [hd0 nth]. apply negb_true_iff. now apply kind_eqb_neq.
Qed.
(** What a run consumed is the beginning of what it got. *)
Lemma rest_of g (v v' : list kind) k (x : list kind) : v ++ k :: x = lead g ++ v' ++ k :: x -> v = lead g ++ v'.
Proof. intros H. rewrite app_assoc in H. exact (app_inv_tail _ _ _ H). Qed.
Definition ends_dot (v : list kind) : Prop := exists p, v = p ++ [KDot].
Lemma ends_dot_app p v : ends_dot v -> ends_dot (p ++ v).
Proof. intros (q & ->). exists (p ++ q). apply app_assoc. Qed.
Lemma bump_inv a r F u r1 F1 : @p_bump TO a (mkDS r F) = Ok (u, mkDS r1 F1) -> exists k, r = k :: r1 /\ F1 = F ++ [PTok k] /\ pacc_test a k = true /\ k <> KEof.
Proof.
  intros E. unfold p_bump, p_accept, p_at, p_current in E. cbn [bind tree_ops p_nth ret p_adv] in E. unfold tr_bind, tr_nth, tr_ret, tr_adv in E. cbn [rbind fst snd ds_rem ds_for] in E.
  destruct (pacc_test a (nth 0 r KEof)) eqn:T; [|cbn [rbind fst snd] in E; discriminate E]. destruct r as [|k r]; [discriminate E|]. cbn [ds_rem ds_for] in E. destruct (kind_eqb k KEof) eqn:K; [discriminate E|]. cbn [rbind fst snd passert] in E.
  cbn [ret tree_ops] in E. unfold tr_ret in E. injection E as <- <- <-. exists k. repeat split; [exact T|]. now apply kind_eqb_neq.
Qed.
(** As [twin], but a run may also have stopped before [k] because a parenthesis follows it. *)
Definition twin4 (E : list kind -> Prop) {A} (P : A -> Prop) (m : D A) : Prop := forall v k x y F a1 r1 F1 a2 r2 F2, clean (fl F) ->
  m (mkDS (v ++ k :: x) F) = Ok (a1, mkDS r1 F1) -> m (mkDS (v ++ k :: y) F) = Ok (a2, mkDS r2 F2) ->
  ((exists v', a1 = a2 /\ F1 = F2 /\ r1 = v' ++ k :: x /\ r2 = v' ++ k :: y) \/ (dirty (fl F1) /\ dirty (fl F2)) \/ length (fl F) + length v < cp (fl F1)) \/
  (P a1 /\ clean (fl F1) /\ r1 = k :: x /\ hd0 x = KLParen /\ length (fl F1) = length (fl F) + length v /\ (k = KIdent \/ dirty (fl F2)) /\ hd0 y <> KLParen /\ E v) \/
  (dirty (fl F1) /\ P a2 /\ r2 = k :: y /\ hd0 y = KLParen /\ k <> KIdent).
Lemma four E {A} (P : A -> Prop) (m : D A) : T1 m -> twin4 E P m.
Proof. intros [_ H] v k x y F a1 r1 F1 a2 r2 F2 C E1 E2. left. exact (H _ _ _ _ _ _ _ _ _ _ _ C eq_refl E1 E2). Qed.
Lemma four_bind (E : list kind -> Prop) {A B} (P : B -> Prop) (m : D A) (f : A -> D B) : (forall p v, E v -> E (p ++ v)) -> T1 m -> (forall a, ext (f a)) -> (forall a, twin4 E P (f a)) -> twin4 E P (@bind TO A B m f).
Proof.
  intros HE [X1 H1] X2 H2 v k x y F b1 r1 F1 b2 r2 F2 C E1 E2. cbn [bind tree_ops] in *. unfold tr_bind in *.
  destruct (m (mkDS (v ++ k :: x) F)) as [[a1 [s1 G1]]| |] eqn:M1; cbn [rbind fst snd] in E1; try discriminate E1.
  destruct (m (mkDS (v ++ k :: y) F)) as [[a2 [s2 G2]]| |] eqn:M2; cbn [rbind fst snd] in E2; try discriminate E2.
  destruct (X1 _ _ _ _ _ M1) as (g1 & Eg1 & L1). destruct (X2 _ _ _ _ _ _ E1) as (h1 & Eh1 & _). destruct (X2 _ _ _ _ _ _ E2) as (h2 & Eh2 & _).
  destruct (H1 _ _ _ _ _ _ _ _ _ _ _ C eq_refl M1 M2) as [(v' & -> & -> & -> & ->)|[[D1 D2]|L]].
  - destruct (clean_or (fl G2)) as [C1|D1].
    + assert (VV : v = lead g1 ++ v') by (pose proof C1 as C2; rewrite Eg1 in C2; apply clean_app in C2 as [_ C2]; exact (rest_of _ _ _ _ _ (L1 C2))).
      assert (LL : length (fl G2) + length v' = length (fl F) + length v).
      { pose proof C1 as C2. rewrite Eg1 in C2. apply clean_app in C2 as [_ C2]. pose proof (L1 C2) as L2. apply (ext_len _ _ _ C2) in L2. rewrite Eg1, app_length. rewrite !app_length in L2. cbn [length] in L2. lia. }
      destruct (H2 a2 _ _ _ _ _ _ _ _ _ _ _ C1 E1 E2) as [[S|[S|S]]|[S|S]].
      * left. now left.
      * left. right. now left.
      * left. right. right. lia.
      * right. left. rewrite <- LL. pose proof (HE (lead g1) v') as HV. rewrite <- VV in HV. tauto.
      * right. right. exact S.
    + left. right; left. rewrite Eh1, Eh2. split; now apply dirty_app.
  - left. right; left. rewrite Eh1, Eh2. split; now apply dirty_app.
  - left. right; right. rewrite Eh1. pose proof (cp_mono (fl G1) h1). lia.
Qed.
Definition path_rec : token_set := ts_union (ts_new [KDot; KColon]) STMT_RECOVERY.
Definition path_step : D bool := n <- @p_nth TO 1 ;; if kind_eqb n KLParen then @ret TO _ false else @name_ref_r TO path_rec ;; @ret TO _ true.
Definition path_body : D bool := b <- @p_at TO (PKind KColon) ;; if b then @ret TO _ false else d <- @p_at TO (PKind KDot) ;; if d then @p_bump TO (PKind KDot) ;; path_step else @ret TO _ false.
Lemma ext_step : ext path_step.
Proof. unfold path_step. apply ext_bind; [apply ext_nth|]. intros k. exts. Qed.
Lemma four_step : twin4 (fun v => v = []) (fun b => b = false) path_step.
Proof.
  intros v k x y F a1 r1 F1 a2 r2 F2 C E1 E2. unfold path_step in *. cbn [bind tree_ops p_nth] in *. unfold tr_bind at 1 in E1. unfold tr_bind at 1 in E2. unfold tr_nth in *. cbn [rbind fst snd ds_rem] in *.
  assert (G : T1 (@bind TO _ _ (@name_ref_r TO path_rec) (fun _ => @ret TO _ true))) by tws.
  assert (GF : fails no_ident (@bind TO _ _ (@name_ref_r TO path_rec) (fun _ => @ret TO _ true))) by (apply fails_bind; [apply fails_name_ref_r|intros _; apply ext_ret]).
  assert (GE : eats (kind_eqb KIdent) (@bind TO _ _ (@name_ref_r TO path_rec) (fun _ => @ret TO _ true))) by (apply eats_bind; [apply eats_name_ref_r|intros _; apply ext_ret]).
  destruct v as [|u v].
  - cbn [app nth length] in *. destruct (kind_eqb (nth 0 x KEof) KLParen) eqn:K1, (kind_eqb (nth 0 y KEof) KLParen) eqn:K2.
    + left. left. cbn [ret tree_ops] in *. unfold tr_ret in *. injection E1 as <- <- <-. injection E2 as <- <- <-. exists []. auto.
    + right. left. cbn [ret tree_ops] in E1. unfold tr_ret in E1. injection E1 as <- <- <-. apply kind_eqb_eq in K1. split; [reflexivity|]. split; [exact C|]. split; [reflexivity|]. split; [exact K1|]. split; [lia|]. split; [|split; [now apply kind_eqb_neq|reflexivity]]. destruct (kind_eqb k KIdent) eqn:KI; [left; now apply kind_eqb_eq|right].
      refine (GF _ _ _ _ _ _ E2). unfold no_ident. cbn [hd0 nth]. now rewrite KI.
    + destruct (kind_eqb k KIdent) eqn:KI.
      * left. right. right. apply kind_eqb_eq in KI. subst k. pose proof (GE (KIdent :: x) _ _ _ _ C eq_refl E1). lia.
      * right. right. split; [refine (GF _ _ _ _ _ _ E1); unfold no_ident; cbn [hd0 nth]; now rewrite KI|]. cbn [ret tree_ops] in E2. unfold tr_ret in E2. injection E2 as <- <- <-. apply kind_eqb_eq in K2. repeat split; auto. now apply kind_eqb_neq.
    + left. destruct G as [_ G]. exact (G [] _ _ _ _ _ _ _ _ _ _ C eq_refl E1 E2).
  - cbn [app nth] in E1, E2. rewrite hd_snoc in E1, E2. destruct (kind_eqb (hd0 (v ++ [k])) KLParen).
    + left. left. cbn [ret tree_ops] in *. unfold tr_ret in *. injection E1 as <- <- <-. injection E2 as <- <- <-. exists (u :: v). auto.
    + left. destruct G as [_ G]. exact (G (u :: v) _ _ _ _ _ _ _ _ _ _ C eq_refl E1 E2).
Qed.
Lemma ext_body : ext path_body.
Proof.
  unfold path_body. apply ext_bind; [exts|]. intros [|]; [apply ext_ret|]. apply ext_bind; [exts|]. intros [|]; [|apply ext_ret]. apply ext_bind; [exts|]. intros _. apply ext_step.
Qed.
Definition dot_step : D bool := @p_bump TO (PKind KDot) ;; path_step.
Lemma ext_dot : ext dot_step.
Proof. unfold dot_step. apply ext_bind; [exts|]. intros _. apply ext_step. Qed.
Lemma four_dot : twin4 ends_dot (fun b => b = false) dot_step.
Proof.
  intros v k x y F a1 r1 F1 a2 r2 F2 C E1 E2. unfold dot_step in *. cbn [bind tree_ops] in E1, E2. unfold tr_bind in E1, E2.
  destruct (@p_bump TO (PKind KDot) (mkDS (v ++ k :: x) F)) as [[u1 [s1 G1]]| |] eqn:M1; cbn [rbind fst snd] in E1; try discriminate E1.
  destruct (@p_bump TO (PKind KDot) (mkDS (v ++ k :: y) F)) as [[u2 [s2 G2]]| |] eqn:M2; cbn [rbind fst snd] in E2; try discriminate E2.
  destruct (bump_inv _ _ _ _ _ _ M1) as (k1 & R1 & -> & T1 & _). destruct (bump_inv _ _ _ _ _ _ M2) as (k2 & R2 & -> & T2 & _).
  destruct v as [|u v].
  - left. right. right. destruct (ext_step _ _ _ _ _ E1) as (g & Eg & _). rewrite Eg. pose proof (cp_mono (fl (F ++ [PTok k1])) g) as M. rewrite fl_app, cp_app_clean in M by exact C. cbn [fl flat_map fl1 app length cp] in *. rewrite fl_app. cbn [fl flat_map fl1 app length cp]. lia.
  - cbn [app] in R1, R2. assert (s1 = v ++ k :: x) by congruence. assert (s2 = v ++ k :: y) by congruence. assert (u = k1) by congruence. assert (u = k2) by congruence. subst s1 s2 k1 k2. cbn [pacc_test] in T1. apply kind_eqb_eq in T1. subst u.
    assert (C' : clean (fl (F ++ [PTok KDot]))) by (rewrite fl_app; apply clean_app; split; [exact C|reflexivity]).
    assert (LF : length (fl (F ++ [PTok KDot])) = length (fl F) + 1) by (rewrite fl_app, app_length; reflexivity).
    destruct (four_step _ _ _ _ _ _ _ _ _ _ _ C' E1 E2) as [[S|[S|S]]|[(S1 & S2 & S3 & S4 & S5 & S6 & S7 & S8)|(S1 & S2 & S3 & S4 & S5)]].
    + left. left. exact S.
    + left. right. left. exact S.
    + left. right. right. cbn [length]. lia.
    + right. left. repeat (split; [solve [assumption|cbn [length]; lia]|]). exists []. now rewrite S8.
    + right. right. auto.
Qed.
Lemma four_body : twin4 ends_dot (fun b => b = false) path_body.
Proof.
  unfold path_body. apply four_bind; [exact ends_dot_app|tws| |].
  - intros [|]; [apply ext_ret|]. apply ext_bind; [exts|]. intros [|]; [|apply ext_ret]. apply ext_dot.
  - intros [|]; [apply four; tws|]. apply four_bind; [exact ends_dot_app|tws| |].
    + intros [|]; [|apply ext_ret]. apply ext_dot.
    + intros [|]; [|apply four; tws]. apply four_dot.
Qed.
Lemma ext_out {A} : ext (@out TO A).
Proof. apply (tw_out any). Qed.
Lemma ext_loop (b : D bool) : ext b -> forall n, ext (@p_loop TO n b).
Proof. intros H. induction n as [|n IH]; cbn [p_loop]; [apply ext_out|]. apply ext_bind; [exact H|]. intros [|]; [exact IH|apply ext_ret]. Qed.
Lemma four_loop n : twin4 ends_dot (fun _ => True) (@p_loop TO n path_body).
Proof.
  induction n as [|n IH]; cbn [p_loop]; [apply four, tw_out|]. intros v k x y F b1 r1 F1 b2 r2 F2 C E1 E2. cbn [bind tree_ops] in *. unfold tr_bind in *.
  assert (X2 : forall a : bool, ext (if a then @p_loop TO n path_body else @ret TO unit tt)) by (intros [|]; [apply ext_loop, ext_body|apply ext_ret]).
  destruct (path_body (mkDS (v ++ k :: x) F)) as [[a1 [s1 G1]]| |] eqn:M1; cbn [rbind fst snd] in E1; try discriminate E1.
  destruct (path_body (mkDS (v ++ k :: y) F)) as [[a2 [s2 G2]]| |] eqn:M2; cbn [rbind fst snd] in E2; try discriminate E2.
  destruct (ext_body _ _ _ _ _ M1) as (g1 & Eg1 & L1). destruct (X2 a1 _ _ _ _ _ E1) as (h1 & Eh1 & _). destruct (X2 a2 _ _ _ _ _ E2) as (h2 & Eh2 & _).
  destruct (four_body _ _ _ _ _ _ _ _ _ _ _ C M1 M2) as [[(v' & -> & -> & -> & ->)|[[D1 D2]|L]]|[(-> & C1 & -> & P1 & L & H)|(D1 & -> & -> & P2 & H)]].
  - destruct a2.
    + destruct (clean_or (fl G2)) as [C1|D1].
      * assert (VV : v = lead g1 ++ v') by (pose proof C1 as C2; rewrite Eg1 in C2; apply clean_app in C2 as [_ C2]; exact (rest_of _ _ _ _ _ (L1 C2))).
      assert (LL : length (fl G2) + length v' = length (fl F) + length v).
        { pose proof C1 as C2. rewrite Eg1 in C2. apply clean_app in C2 as [_ C2]. pose proof (L1 C2) as L2. apply (ext_len _ _ _ C2) in L2. rewrite Eg1, app_length. rewrite !app_length in L2. cbn [length] in L2. lia. }
        destruct (IH _ _ _ _ _ _ _ _ _ _ _ C1 E1 E2) as [[S|[S|S]]|[S|S]].
        -- left. now left.
        -- left. right. now left.
        -- left. right. right. lia.
        -- right. left. rewrite <- LL. pose proof (ends_dot_app (lead g1) v') as HV. rewrite <- VV in HV. tauto.
        -- right. right. exact S.
      * left. right; left. rewrite Eh1, Eh2. split; now apply dirty_app.
    + left. left. cbn [ret tree_ops] in *. unfold tr_ret in *. injection E1 as <- <- <-. injection E2 as <- <- <-. exists v'. auto.
  - left. right; left. rewrite Eh1, Eh2. split; now apply dirty_app.
  - left. right; right. rewrite Eh1. pose proof (cp_mono (fl G1) h1). lia.
  - right. left. cbn [ret tree_ops] in E1. unfold tr_ret in E1. injection E1 as <- <- <-. destruct H as (H & H' & H''). repeat split; auto. destruct H as [H|H]; [now left|right]. rewrite Eh2. now apply dirty_app.
  - right. right. cbn [ret tree_ops] in E2. unfold tr_ret in E2. injection E2 as <- <- <-. repeat split; auto. rewrite Eh1. now apply dirty_app.
Qed.
Lemma path_eq n : @index_path TO n = @node TO _ KIndexPath (@name_ref_r TO path_rec ;; @p_loop TO n path_body).
Proof. reflexivity. Qed.
Lemma ext_path n : ext (@index_path TO n).
Proof.
  rewrite path_eq. unfold node. apply ext_node_by, ext_bind; [|intros _; apply ext_ret]. apply ext_bind; [exts|]. intros _. apply ext_loop, ext_body.
Qed.
Lemma four_node_by (m : D kind) : twin4 ends_dot (fun _ => True) m -> twin4 ends_dot (fun _ => True) (@node_by TO m).
Proof.
  intros H. intros v k x y F a1 r1 F1 a2 r2 F2 C E1 E2. cbn [node_by tree_ops] in *. unfold tr_node in *. cbn [ds_rem ds_for] in *.
  destruct (m (mkDS (v ++ k :: x) [])) as [[k1 [s1 G1]]| |] eqn:M1; cbn [rbind] in E1; try discriminate E1. cbn [ds_rem ds_for] in E1. injection E1 as <- <- <-.
  destruct (m (mkDS (v ++ k :: y) [])) as [[k2 [s2 G2]]| |] eqn:M2; cbn [rbind] in E2; try discriminate E2. cbn [ds_rem ds_for] in E2. injection E2 as <- <- <-.
  destruct (H _ _ _ _ _ _ _ _ _ _ _ clean_nil M1 M2) as [[(v' & -> & -> & -> & ->)|[[D1 D2]|L]]|[(_ & C1 & -> & P1 & L & K)|(D1 & _ & -> & P2 & K)]].
  - left. left. exists v'. auto.
  - left. right; left. rewrite !fl_node. split; now apply dirty_app_r.
  - left. right; right. rewrite fl_node, cp_app_clean by exact C. cbn [fl flat_map length] in L. lia.
  - right. left. rewrite !fl_node. split; [exact I|]. split; [apply clean_app; auto|]. split; [reflexivity|]. split; [exact P1|]. split; [rewrite app_length; cbn [fl flat_map length] in L; lia|].
    destruct K as (K & K' & K''). split; [|auto]. destruct K as [K|K]; [now left|right; now apply dirty_app_r].
  - right. right. rewrite !fl_node. repeat split; auto. now apply dirty_app_r.
Qed.
Lemma four_map {A B} (m : D A) (f : A -> B) : twin4 ends_dot (fun _ => True) m -> twin4 ends_dot (fun _ => True) (@bind TO A B m (fun a => @ret TO B (f a))).
Proof.
  intros H v k x y F a1 r1 F1 a2 r2 F2 C E1 E2. cbn [bind ret tree_ops] in *. unfold tr_bind, tr_ret in *.
  destruct (m (mkDS (v ++ k :: x) F)) as [[b1 [s1 G1]]| |] eqn:M1; cbn [rbind fst snd] in E1; try discriminate E1. injection E1 as <- <- <-.
  destruct (m (mkDS (v ++ k :: y) F)) as [[b2 [s2 G2]]| |] eqn:M2; cbn [rbind fst snd] in E2; try discriminate E2. injection E2 as <- <- <-.
  destruct (H _ _ _ _ _ _ _ _ _ _ _ C M1 M2) as [[(v' & -> & S)|S]|[(_ & S)|(S1 & _ & S)]].
  - left. left. exists v'. auto.
  - left. now right.
  - right. left. auto.
  - right. right. auto.
Qed.
Lemma four_path n : twin4 ends_dot (fun _ => True) (@index_path TO n).
Proof.
  rewrite path_eq. unfold node. apply four_node_by, (four_map _ (fun _ => KIndexPath)). apply four_bind; [exact ends_dot_app|tws|intros _; apply ext_loop, ext_body|]. intros _. apply four_loop.
Qed.
Lemma tw_fname_path n : T1 (fname_path n).
Proof.
  unfold fname_path. assert (X2 : forall c, ext (fname_tail c)) by (intros c; apply tw_fname_tail). split; [apply ext_bind; [apply ext_path|exact X2]|].
  intros v k x y F b1 r1 F1 b2 r2 F2 C _ E1 E2. cbn [bind tree_ops] in *. unfold tr_bind in *.
  destruct (@index_path TO n (mkDS (v ++ k :: x) F)) as [[a1 [s1 G1]]| |] eqn:M1; cbn [rbind fst snd] in E1; try discriminate E1.
  destruct (@index_path TO n (mkDS (v ++ k :: y) F)) as [[a2 [s2 G2]]| |] eqn:M2; cbn [rbind fst snd] in E2; try discriminate E2.
  destruct (ext_path n _ _ _ _ _ M1) as (g1 & Eg1 & L1). destruct (X2 a1 _ _ _ _ _ E1) as (h1 & Eh1 & _). destruct (X2 a2 _ _ _ _ _ E2) as (h2 & Eh2 & _).
  destruct (four_path n _ _ _ _ _ _ _ _ _ _ _ C M1 M2) as [[(v' & -> & -> & -> & ->)|[[D1 D2]|L]]|[(_ & C1 & -> & P1 & L & H)|(D1 & _ & -> & P2 & H)]].
  - destruct (clean_or (fl G2)) as [C1|D1].
    + assert (VV : v = lead g1 ++ v') by (pose proof C1 as C2; rewrite Eg1 in C2; apply clean_app in C2 as [_ C2]; exact (rest_of _ _ _ _ _ (L1 C2))).
      assert (LL : length (fl G2) + length v' = length (fl F) + length v).
      { pose proof C1 as C2. rewrite Eg1 in C2. apply clean_app in C2 as [_ C2]. pose proof (L1 C2) as L2. apply (ext_len _ _ _ C2) in L2. rewrite Eg1, app_length. rewrite !app_length in L2. cbn [length] in L2. lia. }
      destruct (tw_fname_tail a2) as [_ T]. destruct (T _ _ _ _ _ _ _ _ _ _ _ C1 eq_refl E1 E2) as [S|[S|S]]; [now left|right; now left|right; right; lia].
    + right; left. rewrite Eh1, Eh2. split; now apply dirty_app.
  - right; left. rewrite Eh1, Eh2. split; now apply dirty_app.
  - right; right. rewrite Eh1. pose proof (cp_mono (fl G1) h1). lia.
  - destruct (kind_eqb k KIdent) eqn:KI.
    + right. right. apply kind_eqb_eq in KI. subst k. pose proof (tail_ident _ _ _ _ _ _ C1 E1). lia.
    + right. left. apply kind_eqb_neq in KI. destruct H as ([H|H] & _); [contradiction|]. split; [exact (tail_fails _ _ _ _ _ _ _ KI P1 E1)|]. rewrite Eh2. now apply dirty_app.
  - right. left. split; [rewrite Eh1; now apply dirty_app|]. exact (tail_fails _ _ _ _ _ _ _ H P2 E2).
Qed.
Lemma test_ident : pacc_test (PKind KIdent) KIdent = true.
Proof. reflexivity. Qed.
Lemma content_eq n : @function_def_content TO n = @node_ TO _ KFunctionDefContent (b <- @p_at TO (PKind KIdent) ;; n0 <- @p_nth TO 1 ;;
  if b && kind_eqb n0 KLParen then @name_r TO (ts_union (ts_new [KLParen]) (ts_union (ts_new [KLParen]) STMT_RECOVERY)) else fname_path n).
Proof. reflexivity. Qed.
Lemma eats_path n : eats (kind_eqb KIdent) (@index_path TO n).
Proof.
  rewrite path_eq. apply eats_node, eats_bind; [apply eats_name_ref_r|]. intros _. apply ext_loop, ext_body.
Qed.
Lemma tw_fname n : T1 (@function_def_content TO n).
Proof.
  rewrite content_eq. apply tw_node_, tw_head. intros k. destruct (pacc_test (PKind KIdent) k) eqn:EK.
  - cbn [pacc_test] in EK. apply kind_eqb_eq in EK. subst k. apply tw_peek.
    + intros k. destruct (true && kind_eqb k KLParen); [tws|apply tw_fname_path].
    + intros k. destruct (true && kind_eqb k KLParen); [apply eats_name_r|]. unfold fname_path. apply eats_bind; [apply eats_path|intros c; exact (proj1 (tw_fname_tail c))].
  - cbn [andb]. apply tw_drop, tw_any. apply tw_fname_path.
Qed.
#[export] Hint Resolve tw_fname : tw.
Lemma eats_expect k : eats (kind_eqb k) (@p_expect TO k).
Proof. unfold p_expect. apply eats_cur. rewrite kind_eqb_refl. apply eats_bind; [apply eats_bump|]. intros a. apply ext_ret. Qed.
Section Open.
Variable n : nat.
Variable stmt : D unit.
Variable ex : nat -> D (option nat).
Hypothesis HS : T1 stmt.
Hypothesis HE : forall b, T1 (ex b).
Hypothesis XE : forall b, eats (kind_eqb KIdent) (ex b).
Hint Resolve HS HE : tw.
Lemma tw_block_raw s : T1 (@block_raw TO n stmt s).
Proof. unfold block_raw. tws. Qed.
Lemma tw_block : T1 (@block TO n stmt).
Proof. apply tw_block_raw. Qed.
Hint Resolve tw_block : tw.
Lemma tw_single : T1 (@expr_single TO ex).
Proof. apply HE. Qed.
Hint Resolve tw_single : tw.
Lemma tw_expr : T1 (@expr TO n ex).
Proof. unfold expr, expr_multi. tws. Qed.
Lemma tw_paren : T1 (@paren_expr TO ex).
Proof. unfold paren_expr. tws. Qed.
Lemma tw_index : T1 (@index TO ex).
Proof. unfold index. tws. Qed.
Hint Resolve tw_expr tw_paren tw_index : tw.
Lemma tw_table_content : T1 (@table_content TO ex).
Proof.
  unfold table_content. apply tw_node_, tw_cur. intros k. destruct (kind_eqb k KIdent) eqn:EK; [|apply tw_any; tws]. apply kind_eqb_eq in EK. subst k. apply tw_peek; [intros k; tws|].
  intros k. destruct (kind_eqb k KEq); apply eats_node_; [|apply XE]. apply eats_bind; [|intros a; exts]. apply eats_node_. unfold name_unchecked. apply eats_node_, eats_bump.
Qed.
Lemma tw_table_inner : T1 (@table_inner TO n).
Proof. unfold table_inner. tws. Qed.
Hint Resolve tw_table_content tw_table_inner : tw.
Lemma tw_table : T1 (@table_expr TO n ex).
Proof. unfold table_expr. tws. Qed.
Lemma tw_function : T1 (@function_expr TO n stmt).
Proof. unfold function_expr. tws. Qed.
Lemma tw_arg_list : T1 (@arg_list TO n ex).
Proof. unfold arg_list. tws. Qed.
Hint Resolve tw_table tw_function tw_arg_list : tw.
Lemma tw_call_args : T1 (@call_args TO n ex).
Proof. unfold call_args. tws. Qed.
Hint Resolve tw_call_args : tw.
Lemma tw_call l : T1 (@call_expr TO n ex l).
Proof. unfold call_expr. tws. Qed.
Lemma tw_index_expr l : T1 (@index_expr TO ex l).
Proof. unfold index_expr. tws. Qed.
Lemma tw_method l : T1 (@method_call_expr TO n ex l).
Proof. unfold method_call_expr. tws. Qed.
Hint Resolve tw_call tw_index_expr tw_method : tw.
Lemma tw_postfix : forall m l c, T1 (@postfix_expr TO n ex m l c).
Proof. induction m as [|m IH]; intros l c; cbn [postfix_expr]; [apply tw_out|]. tws. Qed.
Lemma tw_prefix r : T1 (@prefix_expr TO ex r).
Proof. unfold prefix_expr. tws. Qed.
Hint Resolve tw_postfix tw_prefix : tw.
Lemma tw_atom : T1 (@atom_expr TO n stmt ex).
Proof. unfold atom_expr. tws. Qed.
Hint Resolve tw_atom : tw.
Lemma tw_lhs : T1 (@lhs TO n stmt ex).
Proof. unfold lhs. tws. Qed.
Hint Resolve tw_lhs : tw.
Lemma tw_infix b : forall m l, T1 (@infix_loop TO ex m b l).
Proof. induction m as [|m IH]; intros l; cbn [infix_loop]; [apply tw_out|]. tws. Qed.
Hint Resolve tw_infix : tw.
Lemma tw_expr_bp b : T1 (@expr_bp_body TO n stmt ex b).
Proof. unfold expr_bp_body. tws. Qed.
Lemma tw_else : T1 (@else_branch TO n stmt).
Proof. unfold else_branch. tws. Qed.
Hint Resolve tw_else : tw.
Lemma tw_elseif : forall m, T1 (@elseif_branch TO n stmt ex m).
Proof. induction m as [|m IH]; cbn [elseif_branch]; [apply tw_out|]. tws. Qed.
Hint Resolve tw_elseif : tw.
Lemma eats_expr_bp b : eats (kind_eqb KIdent) (@expr_bp_body TO n stmt ex b).
Proof.
  unfold expr_bp_body. apply eats_bind; [|intros o; exts]. unfold lhs. apply eats_cur. cbn [prefix_binding_power NOT_AN_OP Nat.ltb Nat.leb].
  apply eats_bind; [|intros o; exts]. unfold atom_expr. apply eats_cur. cbn [prefix_binding_power Nat.ltb Nat.leb]. apply eats_at.
  replace (pacc_test (PSet LITERAL_FIRST) KIdent) with false by reflexivity. apply eats_cur. cbn [kind_eqb]. apply eats_bind; [|intros o; exts].
  unfold name_ref. apply eats_node, eats_expect.
Qed.
Lemma tw_fun_def : T1 (@function_def_stmt TO n stmt).
Proof. unfold function_def_stmt. tws. Qed.
Lemma tw_for : T1 (@for_content TO n ex).
Proof.
  unfold for_content. apply tw_node_, tw_head. intros k. destruct (pacc_test (PKind KIdent) k) eqn:EK; [|apply tw_any; tws]. cbn [pacc_test] in EK. apply kind_eqb_eq in EK. subst k.
  apply tw_peek; [intros k; unfold numeric_for, generic_for; tws|]. intros k. destruct (kind_eqb k KEq).
  - unfold numeric_for. apply eats_guard. apply eats_node_. apply eats_bind; [|intros a; exts].
    unfold name. apply eats_at. rewrite test_ident. apply eats_node_, eats_bump.
  - unfold generic_for. apply eats_guard. apply eats_node_. apply eats_bind; [|intros a; exts].
    unfold multi_name_r. cbv zeta. apply eats_node_, eats_at. cbn [andb]. apply eats_bind; [apply eats_name_r|intros a; exts].
Qed.
Lemma tw_local : tw (kind_eqb KLocalKw) (@local_stmt TO n stmt ex).
Proof.
  unfold local_stmt. apply tw_peek; [intros k; unfold local_function_def_stmt, local_assign_stmt; tws|]. intros k. unfold local_function_def_stmt, local_assign_stmt.
  destruct (kind_eqb k KFunctionKw); apply eats_node_, eats_bind; try apply eats_bump; intros a; exts.
Qed.
Hint Resolve tw_fun_def tw_for : tw.
Lemma tw_stmt : T1 (@stmt_body TO n stmt ex).
Proof.
  unfold stmt_body. apply tw_bind; [|intros a; tws]. apply tw_cur. intros k.
  destruct (kind_eqb k KLocalKw) eqn:EL.
  - apply kind_eqb_eq in EL. subst k. cbn [kind_eqb]. exact tw_local.
  - apply tw_any. unfold if_stmt, repeat_until_stmt, return_stmt, do_stmt, while_stmt, for_stmt, expr_stmt. tws.
Qed.
End Open.
Theorem tw_knot : forall n, T1 (@stmt_f TO n) /\ forall b, T1 (@expr_f TO n b).
Proof.
  assert (H : forall n, (T1 (@stmt_f TO n) /\ forall b, T1 (@expr_f TO n b)) /\ (forall b, eats (kind_eqb KIdent) (@expr_f TO n b))); [|intros n; exact (proj1 (H n))].
  induction n as [|n [[IS IE] XE]]; cbn [stmt_f expr_f].
  - split; [split; intros; apply tw_out|intros; apply eats_out].
  - split; [split; [now apply tw_stmt|intros b; now apply tw_expr_bp]|intros b; now apply eats_expr_bp].
Qed.
