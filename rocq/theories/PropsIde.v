(** PropsIde.v — diagnostics of a text (C54) and the diagnostic collection (C60). *)
From Verif Require Import Base Tree Ast Validation TextEdit Stdx LineIndex PropsTextEdit PropsLineIndex PropsParser Ide.

(** * C54 *)
Theorem C54_first_128 : forall t p, source_file_parse t = Ok p -> exists ds, ide_diagnostics t = Ok ds /\ length ds = Nat.min 128 (length (pa_errors p)) /\
  forall i e, i < 128 -> nth_error (pa_errors p) i = Some e -> exists d, nth_error ds i = Some d /\
    id_range d = e_range e /\ id_message d = String.append "Syntax Error: " (e_msg e) /\ id_severity d = SevError.
Proof.
  intros t p H. unfold ide_diagnostics. rewrite H. cbn [rbind]. eexists. split; [reflexivity|]. split; [rewrite map_length, firstn_length; reflexivity|].
  intros i e Hi He. rewrite nth_error_map. assert (X : nth_error (firstn 128 (pa_errors p)) i = Some e).
  { rewrite <- (firstn_skipn 128 (pa_errors p)) in He. destruct (Nat.lt_ge_cases i (length (firstn 128 (pa_errors p)))) as [L|L]; [rewrite nth_error_app1 in He by exact L; exact He|].
    exfalso. rewrite firstn_length in L. assert (i < length (firstn 128 (pa_errors p) ++ skipn 128 (pa_errors p))) by (apply nth_error_Some; rewrite He; discriminate). rewrite firstn_skipn in H0. lia. }
  rewrite X. cbn [option_map]. eexists. split; [reflexivity|]. auto.
Qed.
Print Assumptions C54_first_128.

(** What the client is sent: one item per diagnostic, in order, converted to LSP positions. *)
Definition sent_as (li : line_index) (d : ide_diagnostic) (l : lsp_diagnostic) : Prop :=
  ld_message l = id_message d /\ ld_severity l = Some 1 /\ ld_source l = Some "lua-analyzer"%string /\ ld_rest l = 0%N /\
  to_proto_position li (r_start (id_range d)) = Ok (fst (ld_range l)) /\ to_proto_position li (r_end (id_range d)) = Ok (snd (ld_range l)).

Lemma to16_total s : forall c0 col r, c0 <= col -> col - c0 <= r -> exists n, to16_loop (wide c0 s) col r = Ok n.
Proof.
  induction s as [|c s IH]; intros c0 col r H1 H2; cbn [wide]; [eexists; reflexivity|]. pose proof (utf16_le c). destruct (is_ascii c) eqn:A; cbn [app].
  - destruct (ascii_len c A). destruct (Nat.le_gt_cases (c0 + utf8_len c) col) as [L|L]; [apply IH; lia|]. exists r.
    assert (G : forall s k, col < k -> to16_loop (wide k s) col r = Ok r).
    { clear. induction s as [|c s IH]; intros k Hk; cbn [wide]; [reflexivity|]. pose proof (utf8_len_pos c). destruct (is_ascii c); cbn [app]; [apply IH; lia|]. cbn [to16_loop snd]. destruct (Nat.leb_spec (k + utf8_len c) col); [lia|reflexivity]. }
    apply G. lia.
  - cbn [to16_loop fst snd]. destruct (Nat.leb_spec (c0 + utf8_len c) col) as [L|L]; [|eexists; reflexivity]. unfold u16c_len. cbn [fst snd]. rewrite usub_ok by lia. cbn [rbind].
    replace (c0 + utf8_len c - c0) with (utf8_len c) by lia. rewrite len16_16, usub_ok by lia. cbn [rbind]. rewrite usub_ok by lia. cbn [rbind]. apply IH; lia.
Qed.
(** Every offset, even beyond the end or inside a character, has a position. *)
Theorem C54_position_total : forall t li o, li_new t = Ok li -> exists pos, to_proto_position li o = Ok pos.
Proof.
  intros t li o H. destruct (offset_split t o) as (a & b & k & E & Hk & ->). destruct (line_split a) as (p & s & Hl). unfold to_proto_position.
  rewrite (line_col_at t a b k p s li H E Hk Hl). cbn [rbind]. unfold to_utf16, utf8_to_utf16_col. cbn [lc_line lc_col]. destruct Hl as (Ea & Hw & Hs). rewrite Ea, <- app_assoc in E.
  destruct (li_wides t li p s b H E Hw Hs) as (s' & W). destruct (assoc (count_nl p) (li_utf16 li)) as [cs|]; [|eexists; reflexivity].
  rewrite W. destruct (to16_total (s ++ s') 0 (blen s + k) (blen s + k) ltac:(lia) ltac:(lia)) as (n & ->). eexists. reflexivity.
Qed.
Print Assumptions C54_position_total.

Theorem C54_published : forall t, fits_u32 (S (blen t)) = true -> exists li ds ls, li_new t = Ok li /\ ide_diagnostics t = Ok ds /\ publish_diagnostics t = Ok ls /\ Forall2 (sent_as li) ds ls.
Proof.
  intros t F. assert (F' : fits_u32 (blen t) = true) by (eapply fits_mono; [|exact F]; lia). destruct (C11_parse_total t F) as (p & Hp). apply C40_new_total in F' as (li & Hli).
  destruct (C54_first_128 t p Hp) as (ds & Hds & _). unfold publish_diagnostics. rewrite Hli, Hds. cbn [rbind].
  assert (Sev : Forall (fun d => id_severity d = SevError) ds).
  { unfold ide_diagnostics in Hds. rewrite Hp in Hds. cbn [rbind] in Hds. injection Hds as <-. apply Forall_forall. intros d Hd. apply in_map_iff in Hd as (e & <- & _). reflexivity. }
  assert (G : exists ls, lsp_diags li ds = Ok ls /\ Forall2 (sent_as li) ds ls).
  { clear Hds. induction ds as [|d ds IH]; cbn [lsp_diags]; [eexists; split; [reflexivity|constructor]|]. inversion_clear Sev. destruct IH as (ls & -> & HF); [assumption|]. unfold to_proto_range.
    destruct (C54_position_total t li (r_start (id_range d)) Hli) as (a & Ha). destruct (C54_position_total t li (r_end (id_range d)) Hli) as (b & Hb). rewrite Ha, Hb. cbn [rbind].
    eexists. split; [reflexivity|]. constructor; [|exact HF]. unfold sent_as. cbn. rewrite H. repeat split; assumption. }
  destruct G as (ls & Hls & HF). exists li, ds, ls. auto.
Qed.
Print Assumptions C54_published.
Example C54_case : match publish_diagnostics (txt "x =" ++ [newline] ++ txt "y y") with Ok (d :: _) => ld_range d = (mkLC 1 2, mkLC 1 3) /\ ld_message d = "Syntax Error: Expression statements can only be call expressions"%string | _ => False end.
Proof. vm_compute. split; reflexivity. Qed.

(** * C60 *)

(** Diagnostics that look the same to the collection: source, severity, range and message. *)
Definition same_visible (a b : lsp_diagnostic) : Prop :=
  ld_source a = ld_source b /\ ld_severity a = ld_severity b /\ ld_range a = ld_range b /\ ld_message a = ld_message b.
(** Histories of calls. *)
Inductive cop := CSet (f : nat) (ds : list lsp_diagnostic) | CTake.
Definition cstep (c : collection) (o : cop) : collection :=
  match o with CSet f ds => set_native c f ds | CTake => fst (coll_take_changes c) end.
Definition crun (h : list cop) : collection := fold_left cstep h coll_default.
(** The last list set for a file. *)
Definition last_list (h : list cop) (f : nat) : option (list lsp_diagnostic) :=
  fold_left (fun cur o => match o with CSet g ds => if f =? g then Some ds else cur | CTake => cur end) h None.
(** Since the last take_changes, the file was set to a list different from the one before. *)
Definition changed_since (h : list cop) (f : nat) : Prop :=
  exists h1 ds h2, h = h1 ++ CSet f ds :: h2 /\ ~ In CTake h2 /\
    match last_list h1 f with None => True | Some old => ~ Forall2 same_visible ds old end.

Lemma lc_eqb_eq a b : lc_eqb a b = true <-> a = b.
Proof. unfold lc_eqb. rewrite andb_true_iff, !Nat.eqb_eq. destruct a, b; cbn. split; [intros [-> ->]; reflexivity|intros H; injection H; auto]. Qed.
Lemma are_equal_iff a b : are_diagnostics_equal a b = true <-> same_visible a b.
Proof.
  unfold are_diagnostics_equal, same_visible. rewrite !andb_true_iff, String.eqb_eq, !lc_eqb_eq.
  assert (O : forall A (eqb : A -> A -> bool), (forall x y, eqb x y = true <-> x = y) -> forall x y, option_eqb eqb x y = true <-> x = y).
  { intros A eqb H [x|] [y|]; cbn; try rewrite H; split; try discriminate; try congruence; intros X; now injection X. }
  rewrite (O _ _ String.eqb_eq), (O _ _ Nat.eqb_eq). destruct (ld_range a), (ld_range b); cbn. intuition congruence.
Qed.
Lemma all_equal_iff a : forall b, all_equal a b = true <-> Forall2 same_visible a b.
Proof.
  unfold all_equal. induction a as [|x a IH]; intros [|y b]; cbn [length combine forallb Nat.eqb andb]; try (split; [discriminate|inversion 1]); [split; [constructor|reflexivity]|].
  specialize (IH b). rewrite !andb_true_iff in *. cbn [fst snd]. rewrite are_equal_iff. split; [intros (H1 & H2 & H3); constructor; [assumption|tauto]|inversion 1; subst; tauto].
Qed.
Lemma same_visible_refl a : same_visible a a. Proof. repeat split. Qed.
Lemma sv_refl l : Forall2 same_visible l l. Proof. induction l; constructor; auto using same_visible_refl. Qed.
Lemma sv_sym l : forall l', Forall2 same_visible l l' -> Forall2 same_visible l' l.
Proof. intros l' H. induction H as [|? ? ? ? (?&?&?&?)]; constructor; auto. repeat split; auto. Qed.
Lemma sv_trans a : forall b c, Forall2 same_visible a b -> Forall2 same_visible b c -> Forall2 same_visible a c.
Proof. induction a as [|x a IH]; intros b c H1 H2; inversion H1; subst; inversion H2; subst; constructor; eauto. destruct H3 as (?&?&?&?), H4 as (?&?&?&?); repeat split; congruence. Qed.
Lemma aget_aset {K V} dec (k k' : K) (v : V) l : aget dec k (aset dec k' v l) = if dec k k' then Some v else aget dec k l.
Proof.
  induction l as [|[k2 v2] l IH]; cbn [aset aget]; [destruct (dec k k'); reflexivity|]. destruct (dec k' k2) as [<-|N].
  - cbn [aget]. destruct (dec k k'); reflexivity.
  - cbn [aget]. destruct (dec k k2) as [->|]; [destruct (dec k2 k'); [congruence|reflexivity]|exact IH].
Qed.
Lemma aget_adel {K V} dec (k k' : K) (l : list (K * V)) : aget dec k (adel dec k' l) = if dec k k' then None else aget dec k l.
Proof.
  induction l as [|[k2 v2] l IH]; cbn [adel aget]; [destruct (dec k k'); reflexivity|]. destruct (dec k' k2) as [<-|N].
  - rewrite IH. destruct (dec k k'); reflexivity.
  - cbn [aget]. destruct (dec k k2) as [->|]; [destruct (dec k2 k'); [congruence|reflexivity]|exact IH].
Qed.
Lemma in_set_insert x y l : In x (set_insert y l) <-> x = y \/ In x l.
Proof.
  unfold set_insert. destruct (existsb (Nat.eqb y) l) eqn:E; [|rewrite in_app_iff; cbn; intuition congruence]. apply existsb_exists in E as (z & H & Hz). apply Nat.eqb_eq in Hz. subst z. intuition congruence.
Qed.
Lemma nodup_set_insert y l : NoDup l -> NoDup (set_insert y l).
Proof.
  intros H. unfold set_insert. destruct (existsb (Nat.eqb y) l) eqn:E; [exact H|]. assert (N : ~ In y l) by (intros X; assert (existsb (Nat.eqb y) l = true) by (apply existsb_exists; exists y; split; [exact X|apply Nat.eqb_refl]); congruence).
  clear E. induction l as [|z l IH]; cbn; [constructor; [intros []|constructor]|]. inversion H; subst. constructor; [rewrite in_app_iff; intros [X|[X|[]]]; [auto|subst; apply N; now left]|apply IH; auto; intros X; apply N; now right].
Qed.
Lemma crun_snoc h o : crun (h ++ [o]) = cstep (crun h) o.
Proof. unfold crun. now rewrite fold_left_app. Qed.
Lemma last_snoc h o f : last_list (h ++ [o]) f = match o with CSet g ds => if f =? g then Some ds else last_list h f | CTake => last_list h f end.
Proof. unfold last_list. now rewrite fold_left_app. Qed.
Lemma changed_snoc_take h f : ~ changed_since (h ++ [CTake]) f.
Proof.
  intros (h1 & ds & h2 & E & N & _). destruct (exists_last (l := CSet f ds :: h2) ltac:(discriminate)) as (k & z & Ez). rewrite Ez, app_assoc in E. apply app_inj_tail in E as [_ <-].
  destruct k as [|c k]; cbn in Ez; [injection Ez as X _; discriminate|]. injection Ez as _ ->. apply N, in_app_iff. right. now left.
Qed.
Lemma changed_snoc_set h f g ds : changed_since (h ++ [CSet g ds]) f <-> changed_since h f \/ f = g /\ match last_list h f with None => True | Some old => ~ Forall2 same_visible ds old end.
Proof.
  split.
  - intros (h1 & d & h2 & E & N & M). destruct h2 as [|x h2 _] using rev_ind.
    + apply app_inj_tail in E as [-> E]. injection E as <- <-. right. auto.
    + rewrite app_comm_cons, app_assoc in E. apply app_inj_tail in E as [-> <-]. left. exists h1, d, h2. split; [reflexivity|]. split; [|exact M]. intros X. apply N, in_app_iff. now left.
  - intros [(h1 & d & h2 & -> & N & M)|[-> M]].
    + exists h1, d, (h2 ++ [CSet g ds]). rewrite <- app_assoc. split; [reflexivity|]. split; [|exact M]. rewrite in_app_iff. intros [X|[X|[]]]; [auto|discriminate].
    + exists h, ds, []. auto.
Qed.
Lemma crun_spec h : co_check (crun h) = [] /\ NoDup (co_changes (crun h)) /\
  (forall f, match last_list h f, aget Nat.eq_dec f (co_native (crun h)) with Some ds, Some l => Forall2 same_visible l ds | None, None => True | _, _ => False end) /\
  (forall f, In f (co_changes (crun h)) <-> changed_since h f).
Proof.
  induction h as [|o h (C & N & L & R)] using rev_ind.
  - split; [reflexivity|]. split; [constructor|]. split; [intros f; exact I|]. intros f. split; [intros []|]. intros (h1 & ? & ? & E & _). destruct h1; discriminate.
  - rewrite crun_snoc. destruct o as [g ds|]; cbn [cstep].
    + unfold set_native. pose proof (L g) as Lg. set (c := crun h) in *.
      assert (Put : (match last_list h g with None => True | Some old => ~ Forall2 same_visible ds old end) ->
         let c' := mkColl (aset Nat.eq_dec g ds (co_native c)) (co_check c) (set_insert g (co_changes c)) in
         co_check c' = [] /\ NoDup (co_changes c') /\
         (forall f, match last_list (h ++ [CSet g ds]) f, aget Nat.eq_dec f (co_native c') with Some ds, Some l => Forall2 same_visible l ds | None, None => True | _, _ => False end) /\
         (forall f, In f (co_changes c') <-> changed_since (h ++ [CSet g ds]) f)).
      { intros M. cbn [co_check co_changes co_native]. split; [exact C|]. split; [now apply nodup_set_insert|]. split.
        - intros f. rewrite last_snoc, aget_aset. destruct (Nat.eqb_spec f g) as [->|]; destruct (Nat.eq_dec _ _); try congruence; [apply sv_refl|apply L].
        - intros f. rewrite in_set_insert, changed_snoc_set, R. split; [intros [->|H]; [right; auto|now left]|intros [H|[-> _]]; auto]. }
      destruct (aget Nat.eq_dec g (co_native c)) as [old|] eqn:Eo.
      * destruct (last_list h g) as [lst|] eqn:El; [|contradiction]. destruct (all_equal ds old) eqn:Ea.
        -- apply all_equal_iff in Ea. split; [exact C|]. split; [exact N|]. split.
           ++ intros f. rewrite last_snoc. destruct (Nat.eqb_spec f g) as [->|]; [rewrite Eo; now apply sv_sym|apply L].
           ++ intros f. rewrite changed_snoc_set, R. split; [auto|]. intros [H|[-> H]]; [exact H|]. rewrite El in H. elim H. eapply sv_trans; eauto.
        -- apply Put. intros H. assert (all_equal ds old = true) by (apply all_equal_iff; eapply sv_trans; [exact H|now apply sv_sym]). congruence.
      * destruct (last_list h g); [contradiction|]. now apply Put.
    + assert (E : co_check (fst (coll_take_changes (crun h))) = [] /\ co_native (fst (coll_take_changes (crun h))) = co_native (crun h) /\ co_changes (fst (coll_take_changes (crun h))) = []) by (unfold coll_take_changes; destruct (co_changes (crun h)) eqn:X; cbn; auto).
      destruct E as (E1 & E2 & E3). rewrite E1, E2, E3. split; [reflexivity|]. split; [constructor|]. split; [intros f; rewrite last_snoc; apply L|]. intros f. split; [intros []|]. intros H. now apply changed_snoc_take in H.
Qed.
Theorem C60_collection : forall h,
  (forall f, match last_list h f with Some ds => Forall2 same_visible (diagnostics_for (crun h) f) ds | None => diagnostics_for (crun h) f = [] end) /\
  match snd (coll_take_changes (crun h)) with
  | None => forall f, ~ changed_since h f
  | Some l => NoDup l /\ forall f, In f l <-> changed_since h f
  end.
Proof.
  intros h. destruct (crun_spec h) as (C & N & L & R). split.
  - intros f. specialize (L f). unfold diagnostics_for. rewrite C. cbn [aget]. rewrite app_nil_r. destruct (last_list h f), (aget _ _ _); try contradiction; auto.
  - unfold coll_take_changes. destruct (co_changes (crun h)) as [|x l] eqn:E; cbn [snd]; [intros f H; apply R in H; destruct H|]. split; assumption.
Qed.
Print Assumptions C60_collection.
Example C60_case : let d := mkDiag (mkLC 0 0, mkLC 0 1) (Some 1) None "m"%string in
  snd (coll_take_changes (crun [CSet 1 [d 0%N]; CSet 2 []; CTake; CSet 1 [d 3%N]; CSet 2 [d 0%N]])) = Some [2] /\
  ~ changed_since [CSet 1 [d 0%N]; CSet 2 []; CTake; CSet 1 [d 3%N]; CSet 2 [d 0%N]] 1.
Proof.
  intros d. split; [reflexivity|]. intros H. destruct (C60_collection [CSet 1 [d 0%N]; CSet 2 []; CTake; CSet 1 [d 3%N]; CSet 2 [d 0%N]]) as [_ X]. cbn in X. apply X in H. destruct H as [H|[]]. discriminate.
Qed.
