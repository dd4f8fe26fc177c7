(** DocMatch.v — a decision procedure for [fits], used to show that rules of lua.ungram do not fit nodes. *)
From Verif Require Import Base SyntaxKind ParserTree Codegen GrammarDoc.
Local Open Scope string_scope.
Local Open Scope nat_scope.
Local Open Scope list_scope.

Definition opt_is (o : option string) (s : string) : bool := match o with Some x => String.eqb x s | None => false end.
Definition tokb (s : string) (k : kind) : bool := opt_is (t_macro lua_kinds s) (kind_name k) || opt_is (t_macro lua_kinds ("'" ++ s ++ "'")) (kind_name k).
Lemma tokb_ok s k : tokb s k = true <-> token_named s k.
Proof.
  unfold tokb, token_named, opt_is. rewrite orb_true_iff. destruct (t_macro lua_kinds s), (t_macro lua_kinds ("'" ++ s ++ "'")); rewrite ?String.eqb_eq; intuition congruence.
Qed.
(** The names reached from a name through classes. *)
Fixpoint named (d : doc) (fuel : nat) (n m : string) : bool :=
  match fuel with
  | 0 => false
  | S fuel => (String.eqb n m && d_node d n) ||
      (d_class d n && match rule_of (d_rules d) n with Some (RAlt rs) => existsb (fun r => match r with RNode n' => named d fuel n' m | _ => false end) rs | _ => false end)
  end.
Lemma named_sound d fuel : forall n k cs, named d fuel n (kind_name k) = true -> fits d (RNode n) [PNode k cs].
Proof.
  induction fuel as [|fuel IH]; intros n k cs H; [discriminate|]. cbn [named] in H. apply orb_true_iff in H as [H|H]; apply andb_true_iff in H as [H1 H2].
  - apply String.eqb_eq in H1. subst n. now apply fits_node.
  - destruct (rule_of (d_rules d) n) as [[ | | | | |rs| ]|] eqn:E; try discriminate. apply existsb_exists in H2 as (r & Hr & H2). destruct r as [m| | | | | |]; try discriminate.
    eapply fits_class; [exact H1|exact E|exact Hr|now apply IH].
Qed.
(** Chains of classes are short. *)
Fixpoint depth (g : grammar) (fuel : nat) (n : string) : nat :=
  match fuel with
  | 0 => 0
  | S fuel => match rule_of g n with
    | Some (RAlt rs) => S (fold_right (fun r a => match r with RNode m => Nat.max (depth g fuel m) a | _ => a end) 0 rs)
    | _ => 0 end
  end.
Definition shallow (d : doc) : bool :=
  forallb (fun df => Nat.ltb (depth (d_rules d) 6 (fst df)) 6 && match rule_of (d_rules d) (fst df) with Some (RAlt rs) => forallb (fun r => match r with RNode m => Nat.ltb (depth (d_rules d) 6 m) (depth (d_rules d) 6 (fst df)) | _ => true end) rs | _ => true end) (d_rules d).
Lemma named_complete d : shallow d = true -> forall r t, fits d r t -> forall n k cs fuel, r = RNode n -> t = [PNode k cs] -> depth (d_rules d) 6 n < fuel -> named d fuel n (kind_name k) = true.
Proof.
  intros SH r t H. induction H; intros n' k' cs' fuel E1 E2 HF; try discriminate.
  - injection E1 as <-. injection E2 as <- <-. destruct fuel; [lia|]. cbn [named]. rewrite String.eqb_refl, H. reflexivity.
  - injection E1 as ->. injection E2 as ->. destruct fuel as [|fuel]; [lia|]. cbn [named]. rewrite H, H0. apply orb_true_iff. right. cbn [andb]. apply existsb_exists. exists (RNode m). split; [exact H1|].
    apply (IHfits m k' cs' fuel eq_refl eq_refl). unfold shallow in SH. rewrite forallb_forall in SH.
    assert (HD : exists r0, In (n', r0) (d_rules d)).
    { unfold rule_of in H0. destruct (find (fun d0 => String.eqb (fst d0) n') (d_rules d)) as [[x y]|] eqn:F; [|discriminate]. apply find_some in F as [F1 F2]. apply String.eqb_eq in F2. cbn in F2. subst x. eauto. }
    destruct HD as (r0 & HD). specialize (SH _ HD). cbn [fst] in SH. rewrite H0 in SH. apply andb_true_iff in SH as [_ SH]. rewrite forallb_forall in SH. specialize (SH _ H1). cbn beta iota in SH. apply Nat.ltb_lt in SH. lia.
Qed.

(** What can be left of the children after a part that fits the rule. *)
Fixpoint rests (d : doc) (r : rule) (cs : forest) {struct r} : list forest :=
  match r with
  | RNode n => match cs with PNode k _ :: tl => if named d 7 n (kind_name k) then [tl] else [] | _ => [] end
  | RTok s => match cs with PTok k :: tl => if tokb s k then [tl] else [] | _ => [] end
  | RRep r => (fix go (fuel : nat) (cs : forest) : list forest :=
      cs :: match fuel with 0 => [] | S fuel => flat_map (fun c => if Nat.ltb (length c) (length cs) then go fuel c else []) (rests d r cs) end) (length cs) cs
  | RLab _ r => rests d r cs
  | RSeq rs => (fix go (rs : list rule) (cs : forest) : list forest := match rs with [] => [cs] | r :: rs => flat_map (go rs) (rests d r cs) end) rs cs
  | RAlt rs => (fix go (rs : list rule) : list forest := match rs with [] => [] | r :: rs => rests d r cs ++ go rs end) rs
  | ROpt r => cs :: rests d r cs
  end.
Fixpoint rep_rests (d : doc) (r : rule) (fuel : nat) (cs : forest) : list forest :=
  cs :: match fuel with 0 => [] | S fuel => flat_map (fun c => if Nat.ltb (length c) (length cs) then rep_rests d r fuel c else []) (rests d r cs) end.
Fixpoint seq_rests (d : doc) (rs : list rule) (cs : forest) : list forest := match rs with [] => [cs] | r :: rs => flat_map (seq_rests d rs) (rests d r cs) end.
Lemma rests_rep d r cs : rests d (RRep r) cs = rep_rests d r (length cs) cs.
Proof.
  cbn [rests]. generalize (length cs) as fuel. intros fuel. revert cs. induction fuel as [|fuel IH]; intros cs; [reflexivity|]. cbn [rep_rests]. f_equal. apply flat_map_ext. intros c.
  destruct (length c <? length cs); [apply IH|reflexivity].
Qed.
Lemma rests_seq d rs cs : rests d (RSeq rs) cs = seq_rests d rs cs.
Proof.
  cbn [rests]. revert cs. induction rs as [|r rs IH]; intros cs; [reflexivity|]. cbn [seq_rests]. apply flat_map_ext. exact IH.
Qed.
Lemma rests_alt d rs cs : rests d (RAlt rs) cs = flat_map (fun r => rests d r cs) rs.
Proof. cbn [rests]. induction rs as [|r rs IH]; [reflexivity|]. cbn [flat_map]. now rewrite IH. Qed.
Lemma rep_mono d r fuel : forall fuel' cs b, fuel <= fuel' -> In b (rep_rests d r fuel cs) -> In b (rep_rests d r fuel' cs).
Proof.
  induction fuel as [|fuel IH]; intros fuel' cs b L H.
  - destruct H as [<-|[]]. destruct fuel'; now left.
  - destruct fuel' as [|fuel']; [lia|]. cbn [rep_rests] in *. destruct H as [H|H]; [now left|right]. apply in_flat_map in H as (c & Hc & H). apply in_flat_map. exists c. split; [exact Hc|]. destruct (length c <? length cs); [|destruct H]. apply (IH fuel'); [lia|exact H].
Qed.
Lemma fits_name_node d n f : fits d (RNode n) f -> exists k cs, f = [PNode k cs].
Proof. intros H. remember (RNode n) as r eqn:E. revert n E. induction H; intros n' E; try discriminate; eauto. Qed.
Lemma rests_complete d : shallow d = true -> forall r a, fits d r a -> forall b, In b (rests d r (a ++ b)).
Proof.
  intros SH r a H. induction H; intros b'.
  - assert (E : named d 7 (kind_name k) (kind_name k) = true) by (cbn [named]; now rewrite String.eqb_refl, H). cbn [app]. cbn [rests]. rewrite E. now left.
  - cbn [app]. destruct (fits_name_node _ _ _ H2) as (k & cs & Et). injection Et as ->.
    cbn [rests]. assert (E : named d 7 n (kind_name k) = true); [|rewrite E; now left]. apply (named_complete d SH (RNode n) [PNode k cs]) with (cs := cs); [econstructor; eassumption|reflexivity|reflexivity|].
    unfold shallow in SH. rewrite forallb_forall in SH. unfold rule_of in H0. destruct (find (fun d0 => String.eqb (fst d0) n) (d_rules d)) as [[x y]|] eqn:F; [|discriminate]. apply find_some in F as [F1 F2]. apply String.eqb_eq in F2. cbn in F2. subst x.
    specialize (SH _ F1). apply andb_true_iff in SH as [SH _]. apply Nat.ltb_lt in SH. cbn [fst] in SH. lia.
  - cbn [app rests]. apply tokb_ok in H. rewrite H. now left.
  - rewrite rests_rep. destruct (length ([] ++ b')); now left.
  - rewrite rests_rep. rewrite <- app_assoc. specialize (IHfits2 b'). rewrite rests_rep in IHfits2. destruct a as [|t a]; [exact IHfits2|].
    rewrite app_length. cbn [length Nat.add]. cbn [rep_rests]. right. apply in_flat_map. exists (b ++ b'). split; [apply IHfits1|].
    assert (L : (length (b ++ b') <? length ((t :: a) ++ b ++ b')) = true) by (apply Nat.ltb_lt; rewrite (app_length (t :: a)); cbn; lia). rewrite L. eapply rep_mono; [|exact IHfits2]. lia.
  - cbn [rests]. apply IHfits.
  - now left.
  - rewrite rests_seq. cbn [seq_rests]. rewrite <- app_assoc. apply in_flat_map. exists (b ++ b'). split; [apply IHfits1|]. rewrite <- rests_seq. apply IHfits2.
  - rewrite rests_alt. apply in_flat_map. eauto.
  - now left.
  - cbn [rests]. right. apply IHfits.
Qed.
Lemma rule_ind3 (P : rule -> Prop) (Hn : forall n, P (RNode n)) (Ht : forall t, P (RTok t)) (Hr : forall r, P r -> P (RRep r))
  (Hl : forall l r, P r -> P (RLab l r)) (Hs : forall rs, Forall P rs -> P (RSeq rs)) (Ha : forall rs, Forall P rs -> P (RAlt rs))
  (Ho : forall r, P r -> P (ROpt r)) : forall r, P r.
Proof.
  fix IH 1. intros [n|t|r|l r|rs|rs|r]; [apply Hn|apply Ht|apply Hr, IH|apply Hl, IH|apply Hs|apply Ha|apply Ho, IH]; (induction rs as [|r rs IHrs]; [constructor|constructor; [apply IH|exact IHrs]]).
Qed.
Lemma rests_sound d r : forall cs b, In b (rests d r cs) -> exists a, cs = a ++ b /\ fits d r a.
Proof.
  apply (rule_ind3 (fun r => forall cs b, In b (rests d r cs) -> exists a, cs = a ++ b /\ fits d r a)); clear r.
  - intros n cs b H. cbn [rests] in H. destruct cs as [|[x|x|x y|k c] tl]; try destruct H. destruct (named d 7 n (kind_name k)) eqn:E; [|destruct H]. destruct H as [<-|[]]. exists [PNode k c]. split; [reflexivity|]. eapply named_sound; exact E.
  - intros t cs b H. cbn [rests] in H. destruct cs as [|[x|x|x y|k c] tl]; try destruct H. destruct (tokb t x) eqn:E; [|destruct H]. destruct H as [<-|[]]. exists [PTok x]. split; [reflexivity|]. constructor. now apply tokb_ok.
  - intros r IH cs b H. rewrite rests_rep in H. revert H. generalize (length cs) as fuel. intros fuel. revert cs b. induction fuel as [|fuel IHf]; intros cs b H.
    + destruct H as [<-|[]]. exists []. split; [reflexivity|constructor].
    + cbn [rep_rests] in H. destruct H as [<-|H]; [exists []; split; [reflexivity|constructor]|]. apply in_flat_map in H as (c & Hc & H). destruct (length c <? length cs); [|destruct H].
      destruct (IH _ _ Hc) as (a1 & -> & F1). destruct (IHf _ _ H) as (a2 & -> & F2). exists (a1 ++ a2). split; [apply app_assoc|now constructor].
  - intros l r IH cs b H. destruct (IH cs b H) as (a & -> & F). exists a. split; [reflexivity|now constructor].
  - intros rs IH cs b H. rewrite rests_seq in H. revert cs b H. induction IH as [|r rs Hr _ IHrs]; intros cs b H.
    + destruct H as [<-|[]]. exists []. split; [reflexivity|constructor].
    + cbn [seq_rests] in H. apply in_flat_map in H as (c & Hc & H). destruct (Hr _ _ Hc) as (a1 & -> & F1). destruct (IHrs _ _ H) as (a2 & -> & F2). exists (a1 ++ a2). split; [apply app_assoc|now constructor].
  - intros rs IH cs b H. rewrite rests_alt in H. apply in_flat_map in H as (r & Hr & H). rewrite Forall_forall in IH. destruct (IH r Hr _ _ H) as (a & -> & F). exists a. split; [reflexivity|]. econstructor; eauto.
  - intros r IH cs b H. cbn [rests] in H. destruct H as [<-|H]; [exists []; split; [reflexivity|constructor]|]. destruct (IH cs b H) as (a & -> & F). exists a. split; [reflexivity|now apply fits_some].
Qed.
Definition node_fitsb (d : doc) (k : kind) (cs : forest) : bool :=
  match rule_of (d_rules d) (kind_name k) with Some r => existsb (fun b => match b with [] => true | _ => false end) (rests d r cs) | None => false end.
Lemma node_fitsb_ok d k cs : shallow d = true -> node_fitsb d k cs = true <-> node_fits d k cs.
Proof.
  intros SH. unfold node_fitsb, node_fits. destruct (rule_of (d_rules d) (kind_name k)) as [r|]; [|split; [discriminate|intros (r & H & _); discriminate]]. rewrite existsb_exists. split.
  - intros ([|x b] & H & E); [|discriminate]. apply rests_sound in H as (a & -> & F). rewrite app_nil_r. eauto.
  - intros (r' & E & F). injection E as <-. exists []. split; [|reflexivity]. pose proof (rests_complete d SH _ _ F []) as H. now rewrite app_nil_r in H.
Qed.
