(** PropsOrder.v — C85: the order of hash maps and hash sets makes no difference. *)
From Coq Require Import ZArith Permutation.
From Verif Require Import Base TextEdit LineIndex Vfs Ide Server PropsVfs PropsIde ServerInv PropsServer HashOrder.

(** * Specification *)

(** What a client sees that follows one document: everything except the diagnostics of other documents. *)
Definition about (u : uri) (o : output) : Prop := match o with OutDiagnostics v _ _ => v = u | _ => True end.
Definition uri_dec (a b : uri) : {a = b} + {a <> b}.
Proof. decide equality; apply string_dec. Defined.
Definition about_dec (u : uri) (o : output) : {about u o} + {~ about u o}.
Proof. destruct o; cbn; [left; exact I|apply uri_dec|left; exact I]. Defined.
Definition seen (u : uri) (l : list output) : list output := filter (fun o => if about_dec u o then true else false) l.

(** * Proofs *)

Local Arguments seen : simpl never.

Definition rest (g : gstate) :=
  (g_incoming g, g_outgoing g, g_next_id g, g_shutdown g, g_mem_docs g, g_vfs g, g_config g, g_db g, g_config_version g, g_loads g).
Definition reskin tk dg st g := mkG (g_incoming g) (g_outgoing g) (g_next_id g) dg (g_shutdown g) st tk (g_mem_docs g) (g_vfs g) (g_config g) (g_db g) (g_config_version g) (g_loads g).
Lemma reskin_rest g h : rest g = rest h -> h = reskin (g_tasks h) (g_diagnostics h) (g_sent h) g.
Proof. destruct g, h. unfold rest, reskin. cbn. intros E. injection E as -> -> -> -> -> -> -> -> -> ->. reflexivity. Qed.

(** ** Events that use no order read neither tasks nor diagnostics nor messages *)

Definition framed (f : gstate -> res gstate) : Prop := forall g g', f g = Ok g' ->
  exists T S, g_tasks g' = g_tasks g ++ T /\ (forall t, In t T -> exists i o, t = TResponse i o) /\ g_sent g' = g_sent g ++ S /\ g_diagnostics g' = g_diagnostics g /\
    forall tk dg st, f (reskin tk dg st g) = Ok (reskin (tk ++ T) dg (st ++ S) g').
Lemma framed_quiet f : (forall g g', f g = Ok g' -> g_tasks g' = g_tasks g /\ g_sent g' = g_sent g /\ g_diagnostics g' = g_diagnostics g /\
    forall tk dg st, f (reskin tk dg st g) = Ok (reskin tk dg st g')) -> framed f.
Proof.
  intros H g g' E. destruct (H g g' E) as (A & B & C & D). exists [], []. rewrite !app_nil_r. split; [exact A|]. split; [intros t []|]. split; [exact B|]. split; [exact C|].
  intros tk dg st. rewrite !app_nil_r. apply D.
Qed.
Lemma framed_ext f f' : (forall g, f g = f' g) -> framed f -> framed f'.
Proof.
  intros X F g g' H. rewrite <- X in H. destruct (F g g' H) as (T & S & A & B & C & D & E). exists T, S. split; [exact A|]. split; [exact B|]. split; [exact C|]. split; [exact D|]. intros tk dg st. rewrite <- X. apply E.
Qed.
Lemma framed_comp f f' : framed f -> framed f' -> framed (fun g => let? g := f g in f' g).
Proof.
  intros F F' g g' H. apply rbind_inv in H as (g1 & H1 & H). destruct (F g g1 H1) as (T & S & A & B & C & D & E). destruct (F' g1 g' H) as (T' & S' & A' & B' & C' & D' & E').
  exists (T ++ T'), (S ++ S'). rewrite A', A, C', C, D', D, !app_assoc. split; [reflexivity|]. split; [intros t I; apply in_app_iff in I as [I|I]; auto|]. split; [reflexivity|]. split; [reflexivity|].
  intros tk dg st. rewrite E. cbn [rbind]. rewrite E', <- !app_assoc. reflexivity.
Qed.

Lemma framed_respond id o : framed (fun g => Ok (respond id o g)).
Proof.
  intros g g' H. injection H as <-. exists [], (match aget rid_eq_dec id (g_incoming g) with Some _ => [OutResponse id o] | None => [] end).
  rewrite app_nil_r. unfold respond. destruct (aget rid_eq_dec id (g_incoming g)) eqn:E; cbn.
  - repeat split; [intros t []|]. intros tk dg st. rewrite E, app_nil_r. reflexivity.
  - rewrite app_nil_r. repeat split; [intros t []|]. intros tk dg st. rewrite E, !app_nil_r. reflexivity.
Qed.
Lemma framed_incoming x : framed (fun g => Ok (with_incoming (x (g_incoming g)) g)).
Proof. apply framed_quiet. intros g g' H. injection H as <-. repeat split. Qed.
Lemma framed_request q : framed (fun g => Ok (on_request g q)).
Proof.
  apply (framed_ext (fun g => let? g := Ok (with_incoming (aset rid_eq_dec (q_id q) (q_method q) (g_incoming g)) g) in
    Ok (if g_shutdown g then respond (q_id q) (OError InvalidRequest) g
  else if String.eqb (q_method q) "shutdown" then
    if q_params q then respond (q_id q) OShutdownResult (with_shutdown true g)
    else respond (q_id q) (OError InvalidParams) g
  else if String.eqb (q_method q) "textDocument/completion" then
    if q_params q then with_tasks (g_tasks g ++ [TResponse (q_id q) OCompletionResult]) g
    else respond (q_id q) (OError InvalidParams) g
  else respond (q_id q) (OError MethodNotFound) g))); [reflexivity|].
  apply framed_comp; [apply (framed_incoming (aset rid_eq_dec (q_id q) (q_method q)))|].
  intros g g' H.
  destruct (g_shutdown g) eqn:Sh; [destruct (framed_respond _ _ g g' H) as (T & S & A & B & C & D & E); exists T, S; repeat (split; [assumption|]); intros tk dg st; cbn [reskin g_shutdown]; rewrite Sh; apply E|].
  destruct (String.eqb (q_method q) "shutdown") eqn:M1; [destruct (q_params q) eqn:P|destruct (String.eqb (q_method q) "textDocument/completion") eqn:M2; [destruct (q_params q) eqn:P|]].
  - assert (F : framed (fun g => let? g := Ok (with_shutdown true g) in Ok (respond (q_id q) OShutdownResult g))).
    { apply framed_comp; [|apply framed_respond]. apply framed_quiet. intros g0 g1 H1. injection H1 as <-. repeat split. }
    destruct (F g g' H) as (T & S & A & B & C & D & E); exists T, S; repeat (split; [assumption|]); intros tk dg st; cbn [reskin g_shutdown]; rewrite Sh; apply E.
  - destruct (framed_respond _ _ g g' H) as (T & S & A & B & C & D & E); exists T, S; repeat (split; [assumption|]); intros tk dg st; cbn [reskin g_shutdown]; rewrite Sh; apply E.
  - injection H as <-. exists [TResponse (q_id q) OCompletionResult], []. rewrite app_nil_r. repeat split; [intros t [<-|[]]; eauto|]. intros tk dg st. cbn [reskin g_shutdown]. rewrite Sh, app_nil_r. reflexivity.
  - destruct (framed_respond _ _ g g' H) as (T & S & A & B & C & D & E); exists T, S; repeat (split; [assumption|]); intros tk dg st; cbn [reskin g_shutdown]; rewrite Sh; apply E.
  - destruct (framed_respond _ _ g g' H) as (T & S & A & B & C & D & E); exists T, S; repeat (split; [assumption|]); intros tk dg st; cbn [reskin g_shutdown]; rewrite Sh; apply E.
Qed.
Lemma framed_load l : framed (fun g => load_files g l).
Proof.
  apply framed_quiet. induction l as [|[p c] l IH]; intros g g' H; cbn [load_files] in H; [injection H as <-; repeat split|].
  destruct (aget string_dec p (g_mem_docs g)) eqn:E.
  - destruct (IH g g' H) as (A & B & C & D). repeat (split; [assumption|]). intros tk dg st. cbn [load_files reskin g_mem_docs]. rewrite E. apply D.
  - apply rbind_inv in H as ([v b] & H1 & H). destruct (IH _ _ H) as (A & B & C & D). cbn in A, B, C. repeat (split; [assumption|]).
    intros tk dg st. cbn [load_files]. change (g_mem_docs (reskin tk dg st g)) with (g_mem_docs g). change (g_vfs (reskin tk dg st g)) with (g_vfs g). rewrite E, H1. cbn [rbind]. apply (D tk dg st).
Qed.
Lemma framed_vfs ms : framed (fun g => handle_vfs g ms).
Proof.
  induction ms as [|[|l] ms IH].
  - apply framed_quiet. intros g g' H. injection H as <-. repeat split.
  - exact IH.
  - apply (framed_ext (fun g => let? g := load_files g l in handle_vfs g ms)); [reflexivity|]. apply framed_comp; [apply framed_load|exact IH].
Qed.
Lemma framed_change u v cs : framed (did_change u v cs).
Proof.
  apply framed_quiet. intros g g' H. unfold did_change in *. destruct (abs_path u) as [p|]; [|injection H as <-; repeat split].
  destruct (aget string_dec p (g_mem_docs g)) eqn:E; [|injection H as <-; repeat split; intros tk dg st; cbn [reskin g_mem_docs]; rewrite E; reflexivity].
  apply rbind_inv in H as (i & H1 & H). apply rbind_inv in H as (i' & H2 & H). apply rbind_inv in H as (c & H3 & H). apply rbind_inv in H as (t & H4 & H). apply rbind_inv in H as (t' & H5 & H). apply rbind_inv in H as ([v' b] & H6 & H).
  injection H as <-. repeat split. intros tk dg st. cbn [reskin g_mem_docs g_vfs]. rewrite E, H1. cbn [rbind]. rewrite H2. cbn [rbind]. rewrite H3. cbn [rbind]. rewrite H4. cbn [rbind]. rewrite H5. cbn [rbind]. rewrite H6. reflexivity.
Qed.
Lemma framed_close u : framed (fun g => Ok (did_close u g)).
Proof.
  intros g g' H. injection H as <-. unfold did_close. destruct (abs_path u) as [p|].
  - exists [], [OutDiagnostics u [] (aget string_dec p (g_mem_docs g))]. cbn. rewrite app_nil_r. repeat split; [intros t []|]. intros tk dg st. rewrite app_nil_r. reflexivity.
  - exists [], [OutDiagnostics u [] None]. cbn. rewrite app_nil_r. repeat split; [intros t []|]. intros tk dg st. rewrite app_nil_r. reflexivity.
Qed.
Lemma framed_configuration : framed (fun g => Ok (did_change_configuration g)).
Proof.
  intros g g' H. injection H as <-. exists [], [OutRequest (Z.of_nat (g_next_id g))]. cbn. rewrite app_nil_r. repeat split; [intros t []|]. intros tk dg st. rewrite app_nil_r. reflexivity.
Qed.
Lemma framed_complete r : framed (complete_request r).
Proof.
  apply framed_quiet. intros g g' H. unfold complete_request in *. apply rbind_inv in H as (x & H1 & H).
  assert (F : forall c g g', update_configuration c g = Ok g' -> g_tasks g' = g_tasks g /\ g_sent g' = g_sent g /\ g_diagnostics g' = g_diagnostics g /\
    forall tk dg st, update_configuration c (reskin tk dg st g) = Ok (reskin tk dg st g')).
  { clear. intros c g g' H. unfold update_configuration in *. cbn [reskin g_config]. destruct (list_eq_dec string_dec c (g_config g)); [injection H as <-; repeat split|].
    apply rbind_inv in H as (y & H1 & H). apply rbind_inv in H as (n' & H2 & H). injection H as <-. repeat split. intros tk dg st. cbn [reskin g_config_version]. rewrite H1. cbn [rbind]. rewrite H2. reflexivity. }
  assert (G : g_tasks g' = g_tasks g /\ g_sent g' = g_sent g /\ g_diagnostics g' = g_diagnostics g /\
    forall tk dg st, on_config_response r (with_outgoing (adel rid_eq_dec (s_id r) (g_outgoing g)) (g_next_id g) (reskin tk dg st g)) = Ok (reskin tk dg st g')).
  { unfold on_config_response in *. destruct (s_error r); [injection H as <-; repeat split|]. destruct (s_result r) as [[| | |[|j js]|]|]; try (injection H as <-; repeat split).
    destruct (F _ _ _ H) as (A & B & C & D). cbn in A, B, C. repeat (split; [assumption|]). intros tk dg st. apply (D tk dg st). }
  destruct G as (A & B & C & D). repeat (split; [assumption|]). intros tk dg st. change (g_outgoing (reskin tk dg st g)) with (g_outgoing g). change (g_next_id (reskin tk dg st g)) with (g_next_id g). rewrite H1. cbn [rbind]. apply D.
Qed.
Definition opens (e : event) : bool := match e with ELsp (MNot (NOpen _ _ _)) => true | _ => false end.
Lemma framed_dispatch e : opens e = false -> e <> ETask -> framed (fun g => dispatch_event g e).
Proof.
  intros O N. destruct e as [[q|n|r]| |m ms]; cbn [dispatch_event handle_lsp].
  - apply framed_request.
  - destruct n; cbn [on_notification]; try discriminate O; try apply framed_change; try apply framed_close; try apply framed_configuration;
      apply framed_quiet; intros g g' H; first [discriminate H|injection H as <-; repeat split].
  - apply framed_complete.
  - contradiction.
  - apply framed_vfs.
Qed.

(** ** The collection of diagnostics *)

Record csim (c d : collection) : Prop := mkCS {
  cs_check : co_check c = co_check d;
  cs_native : forall f, aget Nat.eq_dec f (co_native c) = aget Nat.eq_dec f (co_native d);
  cs_changes : Permutation (co_changes c) (co_changes d);
  cs_nodup : NoDup (co_changes c) }.
Lemma csim_refl c : NoDup (co_changes c) -> csim c c.
Proof. intros N. constructor; auto. Qed.
Lemma csim_trans a b c : csim a b -> csim b c -> csim a c.
Proof. intros [A1 A2 A3 A4] [B1 B2 B3 B4]. constructor; [congruence|intros f; now rewrite A2|now transitivity (co_changes b)|exact A4]. Qed.
Lemma csim_sym a b : csim a b -> csim b a.
Proof. intros [A1 A2 A3 A4]. constructor; [congruence|intros f; now rewrite A2|now symmetry|]. apply (Permutation_NoDup A3 A4). Qed.

Lemma existsb_perm f a b : Permutation a b -> existsb (Nat.eqb f) a = existsb (Nat.eqb f) b.
Proof. intros P. induction P as [|x a b _ IH|x y a|a b c _ IH1 _ IH2]; cbn; [reflexivity|now rewrite IH| |congruence]. now destruct (f =? x), (f =? y). Qed.
Lemma existsb_in f a : existsb (Nat.eqb f) a = true <-> In f a.
Proof. rewrite existsb_exists. split; [intros (x & I & E); apply Nat.eqb_eq in E as ->; exact I|intros I; exists f; split; [exact I|apply Nat.eqb_refl]]. Qed.
Lemma insert_perm f a b : Permutation a b -> Permutation (set_insert f a) (set_insert f b).
Proof. intros P. unfold set_insert. rewrite (existsb_perm f a b P). destruct (existsb _ b); [exact P|]. now apply Permutation_app_tail. Qed.
Lemma insert_nodup f a : NoDup a -> NoDup (set_insert f a).
Proof.
  intros N. unfold set_insert. destruct (existsb (Nat.eqb f) a) eqn:E; [exact N|]. apply (Permutation_NoDup (Permutation_cons_append a f)). constructor; [|exact N].
  intros I. apply existsb_in in I. congruence.
Qed.
Lemma insert_swap f k a : NoDup a -> Permutation (set_insert f (set_insert k a)) (set_insert k (set_insert f a)).
Proof.
  intros N. apply NoDup_Permutation; [now do 2 apply insert_nodup|now do 2 apply insert_nodup|].
  assert (I : forall x y l, In x (set_insert y l) <-> x = y \/ In x l).
  { clear. intros x y l. unfold set_insert. destruct (existsb (Nat.eqb y) l) eqn:E.
    - apply existsb_in in E. split; [now right|]. intros [->|H]; assumption.
    - rewrite in_app_iff. cbn. split; [intros [H|[->|[]]]; auto|intros [->|H]; auto]. }
  intros x. rewrite !I. tauto.
Qed.

Lemma set_native_csim c d f ds : csim c d -> csim (set_native c f ds) (set_native d f ds).
Proof.
  intros S. pose proof S as [A1 A2 A3 A4]. unfold set_native. rewrite (A2 f). destruct (aget Nat.eq_dec f (co_native d)) as [old|]; [destruct (all_equal ds old); [exact S|]|];
    (constructor; cbn; [exact A1|intros k; rewrite !aget_aset; destruct (Nat.eq_dec k f); auto|now apply insert_perm|now apply insert_nodup]).
Qed.
Lemma set_native_get c f ds k : k <> f -> aget Nat.eq_dec k (co_native (set_native c f ds)) = aget Nat.eq_dec k (co_native c).
Proof. intros N. unfold set_native. destruct (aget Nat.eq_dec f (co_native c)); [destruct (all_equal _ _); [reflexivity|]|]; cbn; rewrite aget_aset; destruct (Nat.eq_dec k f); congruence. Qed.
Lemma set_native_nodup c f ds : NoDup (co_changes c) -> NoDup (co_changes (set_native c f ds)).
Proof. intros N. unfold set_native. destruct (aget Nat.eq_dec f (co_native c)); [destruct (all_equal _ _); [exact N|]|]; now apply insert_nodup. Qed.
Definition put c f ds := mkColl (aset Nat.eq_dec f ds (co_native c)) (co_check c) (set_insert f (co_changes c)).
Lemma set_native_cases c f ds : set_native c f ds = c \/ set_native c f ds = put c f ds.
Proof. unfold set_native. fold (put c f ds). destruct (aget Nat.eq_dec f (co_native c)); [destruct (all_equal _ _)|]; auto. Qed.
Lemma set_native_swap c f ds k ds' : f <> k -> NoDup (co_changes c) -> csim (set_native (set_native c f ds) k ds') (set_native (set_native c k ds') f ds).
Proof.
  intros D N.
  assert (E1 : set_native (set_native c f ds) k ds' = match aget Nat.eq_dec k (co_native c) with Some old => if all_equal ds' old then set_native c f ds else put (set_native c f ds) k ds' | None => put (set_native c f ds) k ds' end).
  { unfold set_native at 1. rewrite set_native_get by congruence. reflexivity. }
  assert (E2 : set_native (set_native c k ds') f ds = match aget Nat.eq_dec f (co_native c) with Some old => if all_equal ds old then set_native c k ds' else put (set_native c k ds') f ds | None => put (set_native c k ds') f ds end).
  { unfold set_native at 1. rewrite set_native_get by congruence. reflexivity. }
  assert (F : set_native c f ds = match aget Nat.eq_dec f (co_native c) with Some old => if all_equal ds old then c else put c f ds | None => put c f ds end) by reflexivity.
  assert (K : set_native c k ds' = match aget Nat.eq_dec k (co_native c) with Some old => if all_equal ds' old then c else put c k ds' | None => put c k ds' end) by reflexivity.
  assert (PP : csim (put (put c f ds) k ds') (put (put c k ds') f ds)).
  { constructor; cbn; [reflexivity| |now apply insert_swap|now do 2 apply insert_nodup]. intros x. rewrite !aget_aset. destruct (Nat.eq_dec x k), (Nat.eq_dec x f); congruence. }
  assert (P1 : forall x y, NoDup (co_changes (put c x y))) by (intros x y; cbn; now apply insert_nodup).
  rewrite E1, E2, F, K. destruct (aget Nat.eq_dec k (co_native c)) as [ok|]; [destruct (all_equal ds' ok)|]; (destruct (aget Nat.eq_dec f (co_native c)) as [of|]; [destruct (all_equal ds of)|]);
    first [exact PP|apply csim_refl; first [exact N|apply P1]].
Qed.
Definition natives l c := fold_left (fun c (fd : nat * list lsp_diagnostic) => set_native c (fst fd) (snd fd)) l c.
Lemma natives_csim l : forall c d, csim c d -> csim (natives l c) (natives l d).
Proof. induction l as [|x l IH]; intros c d S; [exact S|]. cbn. apply IH. now apply set_native_csim. Qed.
Lemma natives_perm l l' : Permutation l l' -> NoDup (map fst l) -> forall c d, csim c d -> csim (natives l c) (natives l' d).
Proof.
  intros P. induction P as [|x l l' P IH|x y l|l l' l'' P1 IH1 P2 IH2]; intros N c d S.
  - exact S.
  - cbn. inversion N as [|a b N1 N2]; subst. apply IH; [exact N2|]. now apply set_native_csim.
  - cbn. apply natives_csim. inversion N as [|a b N1 N2]; subst. eapply csim_trans; [apply set_native_swap; [intros E; apply N1; left; congruence|apply (cs_nodup _ _ S)]|]. do 2 apply set_native_csim. exact S.
  - eapply csim_trans; [apply (IH1 N c d S)|]. apply IH2; [apply (Permutation_NoDup (Permutation_map fst P1) N)|]. apply csim_refl. apply (Permutation_NoDup (cs_changes _ _ S)). apply (cs_nodup _ _ S).
Qed.

(** ** Similar states *)

Definition tsim (a b : task) : Prop :=
  match a, b with
  | TResponse i o, TResponse i' o' => i = i' /\ o = o'
  | TDiagnostics l, TDiagnostics l' => NoDup (map fst l) /\ Permutation l l'
  | _, _ => False
  end.
Record sim (g h : gstate) : Prop := mkSim {
  si_rest : rest g = rest h;
  si_paths : NoDup (v_paths (g_vfs g));
  si_docs : NoDup (map fst (g_mem_docs g));
  si_tasks : Forall2 tsim (g_tasks g) (g_tasks h);
  si_diags : csim (g_diagnostics g) (g_diagnostics h);
  si_sent : forall u, seen u (g_sent g) = seen u (g_sent h) }.
Lemma seen_app u a b : seen u (a ++ b) = seen u a ++ seen u b.
Proof. apply filter_app. Qed.

Lemma set_paths v p c v' b : set_file_contents v p c = Ok (v', b) -> NoDup (v_paths v) -> NoDup (v_paths v').
Proof.
  intros H N. unfold set_file_contents in H. apply rbind_inv in H as ([v1 i] & H1 & H). apply rbind_inv in H as (old & _ & H).
  assert (N1 : NoDup (v_paths v1)).
  { unfold alloc_file_id in H1. apply rbind_inv in H1 as ([ps j] & H1 & H2). injection H2 as <- _. cbn. unfold intern in H1. destruct (index_of p (v_paths v)) as [k|] eqn:E.
    - apply rbind_inv in H1 as (x & _ & H1). injection H1 as <- _. exact N.
    - apply rbind_inv in H1 as (x & _ & H1). injection H1 as <- _. apply (Permutation_NoDup (Permutation_cons_append (v_paths v) p)). constructor; [|exact N]. now apply index_of_none. }
  destruct old as [a|], c as [d|]; [destruct (contents_eq_dec a d)| | |]; injection H as <- _; exact N1.
Qed.
Lemma aset_keys {K V} dec (k : K) (v : V) l : NoDup (map fst l) -> NoDup (map fst (aset dec k v l)).
Proof.
  assert (I : forall x, In x (map fst (aset dec k v l)) -> x = k \/ In x (map fst l)).
  { intros x. induction l as [|[k' v'] l IH]; cbn; [intros [<-|[]]; auto|]. destruct (dec k k') as [->|N]; cbn; [tauto|]. intros [<-|H]; auto. destruct (IH H); auto. }
  induction l as [|[k' v'] l IH]; cbn; intros N; [constructor; [intros []|constructor]|]. inversion N as [|a b N1 N2]; subst. destruct (dec k k') as [->|D]; cbn; [exact N|].
  constructor; [|apply IH; [|exact N2]].
  - intros X. assert (Y : k' = k \/ In k' (map fst l)).
    { clear -X D. induction l as [|[a b] l IH]; cbn in *; [destruct X as [<-|[]]; auto|]. destruct (dec k a) as [->|]; cbn in *; [tauto|]. destruct X as [<-|X]; auto. destruct (IH X); auto. }
    destruct Y as [->|Y]; contradiction.
  - intros x X. clear -X. induction l as [|[a b] l IH]; cbn in *; [destruct X as [<-|[]]; auto|]. destruct (dec k a) as [->|]; cbn in *; [tauto|]. destruct X as [<-|X]; auto. destruct (IH X); auto.
Qed.
Lemma adel_keys {K V} dec (k : K) (l : list (K * V)) : NoDup (map fst l) -> NoDup (map fst (adel dec k l)).
Proof.
  assert (I : forall (l : list (K * V)) x, In x (map fst (adel dec k l)) -> In x (map fst l)).
  { clear. induction l as [|[k' v'] l IH]; cbn; [auto|]. intros x. destruct (dec k k'); cbn; [auto|]. intros [->|H]; auto. }
  induction l as [|[k' v'] l IH]; cbn; intros N; [constructor|]. inversion N as [|a b N1 N2]; subst. destruct (dec k k'); cbn; [auto|]. constructor; auto.
Qed.

(** ** Subscriptions and diagnostics *)

Lemma subs_perm v l l' : Permutation l l' -> forall s, subscriptions v l = Ok s -> exists s', subscriptions v l' = Ok s' /\ Permutation s s'.
Proof.
  intros P. induction P as [|[p z] l l' _ IH|[p z] [q y] l|l l' l'' _ IH1 _ IH2]; intros s H.
  - exists s. auto.
  - cbn [subscriptions] in *. apply rbind_inv in H as (i & H1 & H). apply rbind_inv in H as (i' & H2 & H). apply rbind_inv in H as (r & H3 & H). injection H as <-.
    destruct (IH r H3) as (r' & E & P). rewrite H1. cbn [rbind]. rewrite H2. cbn [rbind]. rewrite E. cbn [rbind]. exists (i' :: r'). auto.
  - cbn [subscriptions] in *. apply rbind_inv in H as (i & H1 & H). apply rbind_inv in H as (i' & H2 & H). apply rbind_inv in H as (r & H3 & H). injection H as <-.
    apply rbind_inv in H3 as (j & H4 & H3). apply rbind_inv in H3 as (j' & H5 & H3). apply rbind_inv in H3 as (r' & H6 & H3). injection H3 as <-.
    rewrite H4. cbn [rbind]. rewrite H5. cbn [rbind]. rewrite H1. cbn [rbind]. rewrite H2. cbn [rbind]. rewrite H6. cbn [rbind]. exists (j' :: i' :: r'). split; [reflexivity|constructor].
  - destruct (IH1 s H) as (s1 & E1 & P1). destruct (IH2 s1 E1) as (s2 & E2 & P2). exists s2. split; [exact E2|now transitivity s1].
Qed.
Lemma id_index v p i : v_file_id v p = Ok (Some i) -> index_of p (v_paths v) = Some i.
Proof.
  unfold v_file_id, interner_get. destruct (index_of p (v_paths v)) as [j|]; [|discriminate]. intros H. apply rbind_inv in H as (c & _ & H). destruct c; [|discriminate]. congruence.
Qed.
Lemma subs_nodup v l : NoDup (map fst l) -> forall s, subscriptions v l = Ok s -> NoDup s.
Proof.
  assert (I : forall l s i, subscriptions v l = Ok s -> In i s -> exists p, In p (map fst l) /\ v_file_id v p = Ok (Some i)).
  { clear. induction l as [|[p z] l IH]; intros s i H X; cbn [subscriptions] in H; [injection H as <-; destruct X|].
    apply rbind_inv in H as (o & H1 & H). apply rbind_inv in H as (j & H2 & H). apply rbind_inv in H as (r & H3 & H). injection H as <-. destruct o as [o|]; [|discriminate H2]. injection H2 as ->.
    destruct X as [<-|X]; [exists p; split; [now left|exact H1]|]. destruct (IH r i H3 X) as (q & Q1 & Q2). exists q. split; [now right|exact Q2]. }
  induction l as [|[p z] l IH]; intros N s H; cbn [subscriptions] in H; [injection H as <-; constructor|]. inversion N as [|a b N1 N2]; subst.
  apply rbind_inv in H as (o & H1 & H). apply rbind_inv in H as (j & H2 & H). apply rbind_inv in H as (r & H3 & H). injection H as <-. destruct o as [o|]; [|discriminate H2]. injection H2 as ->.
  constructor; [|now apply IH]. intros X. destruct (I l r j H3 X) as (q & Q1 & Q2). apply id_index in H1, Q2. apply index_of_some in H1 as [H1 _], Q2 as [Q2 _]. assert (p = q) by congruence. subst q. contradiction.
Qed.
Lemma compute_perm db l l' : Permutation l l' -> forall s, compute_diagnostics db l = Ok s -> exists s', compute_diagnostics db l' = Ok s' /\ Permutation s s'.
Proof.
  intros P. induction P as [|f l l' _ IH|f k l|l l' l'' _ IH1 _ IH2]; intros s H.
  - exists s. auto.
  - cbn [compute_diagnostics] in *. apply rbind_inv in H as (i & H1 & H). apply rbind_inv in H as (i' & H2 & H). apply rbind_inv in H as (r & H3 & H). injection H as <-.
    destruct (IH r H3) as (r' & E & P). rewrite H1. cbn [rbind]. rewrite H2. cbn [rbind]. rewrite E. cbn [rbind]. eexists. split; [reflexivity|]. auto.
  - cbn [compute_diagnostics] in *. apply rbind_inv in H as (i & H1 & H). apply rbind_inv in H as (i' & H2 & H). apply rbind_inv in H as (r & H3 & H). injection H as <-.
    apply rbind_inv in H3 as (j & H4 & H3). apply rbind_inv in H3 as (j' & H5 & H3). apply rbind_inv in H3 as (r' & H6 & H3). injection H3 as <-.
    rewrite H4. cbn [rbind]. rewrite H5. cbn [rbind]. rewrite H1. cbn [rbind]. rewrite H2. cbn [rbind]. rewrite H6. cbn [rbind]. eexists. split; [reflexivity|constructor].
  - destruct (IH1 s H) as (s1 & E1 & P1). destruct (IH2 s1 E1) as (s2 & E2 & P2). exists s2. split; [exact E2|now transitivity s1].
Qed.
Lemma compute_keys db l : forall s, compute_diagnostics db l = Ok s -> map fst s = l.
Proof.
  induction l as [|f l IH]; intros s H; cbn [compute_diagnostics] in H; [now injection H as <-|]. apply rbind_inv in H as (i & H1 & H). apply rbind_inv in H as (i' & H2 & H). apply rbind_inv in H as (r & H3 & H). injection H as <-. cbn. now rewrite (IH r H3).
Qed.
Lemma update_sim o1 o2 g h g' : valid o1 -> valid o2 -> sim g h -> maybe_update_any o1 g = Ok g' -> exists h', maybe_update_any o2 h = Ok h' /\ sim g' h'.
Proof.
  intros [V1 _] [V2 _] [R NP ND T D S] H. unfold maybe_update_any in H. apply rbind_inv in H as (s & H1 & H). apply rbind_inv in H as (ds & H2 & H). injection H as <-.
  assert (Em : g_mem_docs h = g_mem_docs g) by (injection R; congruence). assert (Ev : g_vfs h = g_vfs g) by (injection R; congruence). assert (Ed : g_db h = g_db g) by (injection R; congruence).
  assert (P : Permutation (o_docs o1 (g_mem_docs g)) (o_docs o2 (g_mem_docs g))) by (etransitivity; [apply V1|symmetry; apply V2]).
  destruct (subs_perm _ _ _ P s H1) as (s' & H1' & P1). destruct (compute_perm _ _ _ P1 ds H2) as (ds' & H2' & P2).
  unfold maybe_update_any. rewrite Em, Ev, Ed, H1'. cbn [rbind]. rewrite H2'. cbn [rbind]. eexists. split; [reflexivity|]. constructor; cbn; auto.
  apply Forall2_app; [exact T|]. constructor; [|constructor]. cbn. split; [|exact P2]. rewrite (compute_keys _ _ _ H2). apply (subs_nodup (g_vfs g) (o_docs o1 (g_mem_docs g))); [|exact H1].
  apply (Permutation_NoDup (Permutation_map fst (Permutation_sym (V1 (g_mem_docs g)))) ND).
Qed.

Ltac rest_tac R := injection R as ? ? ? ? ? ? ? ? ? ?; unfold rest; cbn; congruence.

(** ** One event *)

Lemma keeps_dispatch e g g' : dispatch_event g e = Ok g' -> NoDup (v_paths (g_vfs g)) -> NoDup (map fst (g_mem_docs g)) ->
  NoDup (v_paths (g_vfs g')) /\ NoDup (map fst (g_mem_docs g')).
Proof.
  intros H NP ND. assert (C : core g' = core g -> NoDup (v_paths (g_vfs g')) /\ NoDup (map fst (g_mem_docs g'))) by (intros E; injection E as -> -> _; auto).
  destruct e as [[q|n|r]| |m ms]; cbn [dispatch_event handle_lsp] in H.
  - injection H as <-. apply C, on_request_core.
  - destruct n; cbn [on_notification] in H; try (injection H as <-; auto; fail); try discriminate H.
    + unfold did_open in H. destruct (abs_path u) as [p|]; [|injection H as <-; auto]. apply rbind_inv in H as ([v b] & H1 & H).
      assert (X : NoDup (v_paths v) /\ NoDup (map fst (aset string_dec p version (g_mem_docs g)))) by (split; [now apply (set_paths _ _ _ _ _ H1)|now apply aset_keys]).
      destruct b; [injection H as <-; exact X|]. apply maybe_update_core in H as (E & _). injection E as -> -> _. exact X.
    + unfold did_change in H. destruct (abs_path u) as [p|]; [|injection H as <-; auto]. destruct (aget string_dec p (g_mem_docs g)); [|injection H as <-; auto].
      apply rbind_inv in H as (i & H1 & H). apply rbind_inv in H as (i' & H2 & H). apply rbind_inv in H as (c & H3 & H). apply rbind_inv in H as (t & H4 & H). apply rbind_inv in H as (t' & H5 & H). apply rbind_inv in H as ([v' b] & H6 & H).
      injection H as <-. cbn. split; [now apply (set_paths _ _ _ _ _ H6)|now apply aset_keys].
    + injection H as <-. unfold did_close. destruct (abs_path u); cbn; [split; [exact NP|now apply adel_keys]|auto].
  - apply C. now apply (complete_core r).
  - injection H as <-. apply C, handle_task_core.
  - revert g g' H NP ND C. generalize (m :: ms). clear. induction l as [|[|l0] l IH]; intros g g' H NP ND _; cbn [handle_vfs] in H; [injection H as <-; auto|apply (IH g); auto; intros E; injection E as -> -> _; auto|].
    apply rbind_inv in H as (g1 & H1 & H). assert (X : NoDup (v_paths (g_vfs g1)) /\ NoDup (map fst (g_mem_docs g1))).
    { clear -H1 NP ND. revert g g1 H1 NP ND. induction l0 as [|[p c] l IH]; intros g g1 H1 NP ND; cbn [load_files] in H1; [injection H1 as <-; auto|]. destruct (aget string_dec p (g_mem_docs g)); [now apply (IH g)|].
      apply rbind_inv in H1 as ([v b] & H2 & H1). apply (IH _ _ H1); cbn; [now apply (set_paths _ _ _ _ _ H2)|exact ND]. }
    destruct X as [X1 X2]. apply (IH g1 g' H X1 X2). intros E. injection E as -> -> _. auto.
Qed.
Lemma framed_sim f g h g' : framed f -> (NoDup (v_paths (g_vfs g')) /\ NoDup (map fst (g_mem_docs g'))) -> sim g h -> f g = Ok g' -> exists h', f h = Ok h' /\ sim g' h'.
Proof.
  intros F [NP' ND'] [R NP ND T D S] H. destruct (F g g' H) as (TT & SS & A & B & C & E & G). rewrite (reskin_rest g h R), G. eexists. split; [reflexivity|]. constructor; cbn; auto.
  - rewrite A. apply Forall2_app; [exact T|]. clear -B. induction TT as [|t TT IH]; [constructor|]. constructor; [|apply IH; intros x I; apply B; now right]. destruct (B t (or_introl eq_refl)) as (i & o & ->). cbn. auto.
  - rewrite E. exact D.
  - intros u. rewrite C, !seen_app, S. reflexivity.
Qed.
Lemma run_task_sim g h a b : tsim a b -> sim g h -> sim (run_task g a) (run_task h b).
Proof.
  intros TS [R NP ND T D S]. destruct a as [i o|l], b as [i' o'|l']; try contradiction; cbn in TS.
  - destruct TS as [<- <-]. assert (Ei : g_incoming h = g_incoming g) by (injection R; congruence). cbn [run_task]. unfold respond. rewrite Ei. destruct (aget rid_eq_dec i (g_incoming g)); [|now constructor].
    constructor; cbn; auto; [|intros u; now rewrite !seen_app, S]. rest_tac R.
  - destruct TS as [N P]. cbn [run_task]. constructor; cbn; auto. now apply natives_perm.
Qed.
Lemma handle_task_sim g h : sim g h -> sim (handle_task g) (handle_task h).
Proof.
  intros SI. unfold handle_task. assert (T := si_tasks _ _ SI). assert (S0 : sim (with_tasks [] g) (with_tasks [] h)) by (destruct SI; constructor; cbn; auto).
  revert S0. generalize (with_tasks [] g) (with_tasks [] h). induction T as [|a b l l' TS _ IH]; intros x y S0; [exact S0|]. cbn. apply IH. now apply run_task_sim.
Qed.
Lemma dispatch_sim o1 o2 e g h g' : valid o1 -> valid o2 -> sim g h -> dispatch_any o1 g e = Ok g' -> exists h', dispatch_any o2 h e = Ok h' /\ sim g' h'.
Proof.
  intros V1 V2 SI H. destruct (opens e) eqn:O.
  - destruct e as [[q|[u v t| | | | | | |]|r]| |m ms]; try discriminate O. cbn [dispatch_any] in *. unfold did_open_any in *. destruct (abs_path u) as [p|]; [|injection H as <-; eauto].
    destruct SI as [R NP ND T D S]. assert (Em : g_mem_docs h = g_mem_docs g) by (injection R; congruence). assert (Ev : g_vfs h = g_vfs g) by (injection R; congruence).
    apply rbind_inv in H as ([v' b] & H1 & H). rewrite Ev, Em, H1. cbn [rbind].
    assert (S1 : sim (with_vfs v' (with_mem_docs (aset string_dec p v (g_mem_docs g)) g)) (with_vfs v' (with_mem_docs (aset string_dec p v (g_mem_docs g)) h))).
    { constructor; cbn; auto; [|now apply (set_paths _ _ _ _ _ H1)|now apply aset_keys]. rest_tac R. }
    destruct b; [injection H as <-; eexists; split; [reflexivity|exact S1]|]. exact (update_sim o1 o2 _ _ _ V1 V2 S1 H).
  - assert (E : forall o g, dispatch_any o g e = dispatch_event g e) by (intros o x; destruct e as [[q|[u v t| | | | | | |]|r]| |m ms]; try reflexivity; discriminate O).
    rewrite E in *. assert (ET : e = ETask \/ e <> ETask) by (destruct e; [right; discriminate|now left|right; discriminate]). destruct ET as [->|N].
    + injection H as <-. eexists. split; [reflexivity|]. now apply handle_task_sim.
    + destruct (framed_sim (fun g => dispatch_event g e) g h g' (framed_dispatch e O N)) as (h' & H' & S'); auto; [|eauto]. apply (keeps_dispatch e g g' H); [apply (si_paths _ _ SI)|apply (si_docs _ _ SI)].
Qed.

Definition say (g : gstate) (f : nat) : list output :=
  match nth_error (v_paths (g_vfs g)) f with Some p => [OutDiagnostics (UFile p) (diagnostics_for (g_diagnostics g) f) (aget string_dec p (g_mem_docs g))] | None => [] end.
Lemma publish_say l : forall g g', publish g l = Ok g' -> (forall f, In f l -> nth_error (v_paths (g_vfs g)) f <> None) /\ g' = reskin (g_tasks g) (g_diagnostics g) (g_sent g ++ flat_map (say g) l) g.
Proof.
  induction l as [|f l IH]; intros g g' H; cbn [publish] in H.
  - injection H as <-. split; [intros f []|]. cbn. rewrite app_nil_r. destruct g; reflexivity.
  - apply rbind_inv in H as (p & H1 & H). unfold v_file_path, interner_lookup, runwrap in H1. destruct (nth_error (v_paths (g_vfs g)) f) as [p'|] eqn:E; [|discriminate]. injection H1 as ->.
    apply IH in H as [A ->]. split; [intros k [<-|I]; [congruence|now apply A]|]. cbn [flat_map]. unfold say at 2. rewrite E. cbn [send reskin g_tasks g_diagnostics g_sent g_incoming g_outgoing g_next_id g_shutdown g_mem_docs g_vfs g_config g_db g_config_version g_loads].
    unfold reskin. cbn. rewrite <- app_assoc. reflexivity.
Qed.
Lemma publish_total l : forall g, (forall f, In f l -> nth_error (v_paths (g_vfs g)) f <> None) -> exists g', publish g l = Ok g'.
Proof.
  induction l as [|f l IH]; intros g A; [eexists; reflexivity|]. cbn [publish]. unfold v_file_path, interner_lookup, runwrap. destruct (nth_error (v_paths (g_vfs g)) f) eqn:E; [|elim (A f (or_introl eq_refl) E)]. cbn [rbind]. apply IH. intros k I. cbn. apply A. now right.
Qed.
Lemma perm_short {A} (a b : list A) : Permutation a b -> length a <= 1 -> a = b.
Proof.
  intros P L. destruct a as [|x [|y a]]; [now apply Permutation_nil in P as ->|now apply Permutation_length_1_inv in P as ->|cbn in L; lia].
Qed.
Lemma filter_perm {A} (f : A -> bool) a b : Permutation a b -> Permutation (filter f a) (filter f b).
Proof. intros P. induction P as [|x a b _ IH|x y a|a b c _ IH1 _ IH2]; cbn; [auto|destruct (f x); auto|destruct (f x), (f y); auto; constructor|now transitivity (filter f b)]. Qed.
Lemma seen_one u v d n : seen u [OutDiagnostics v d n] = if uri_dec v u then [OutDiagnostics v d n] else [].
Proof. unfold seen. cbn [filter]. destruct (about_dec u (OutDiagnostics v d n)) as [A|A]; destruct (uri_dec v u) as [B|B]; try reflexivity; cbn [about] in A; contradiction. Qed.
Lemma say_perm u g l l' : NoDup (v_paths (g_vfs g)) -> NoDup l -> Permutation l l' -> seen u (flat_map (say g) l) = seen u (flat_map (say g) l').
Proof.
  intros NP N P.
  set (sel := fun f => match nth_error (v_paths (g_vfs g)) f with Some p => if uri_dec (UFile p) u then true else false | None => false end).
  assert (E : forall l, seen u (flat_map (say g) l) = flat_map (say g) (filter sel l)).
  { clear. induction l as [|f l IH]; [reflexivity|]. cbn [flat_map]. rewrite seen_app, IH. clear IH.
    assert (K : seen u (say g f) = if sel f then say g f else []).
    { unfold sel, say. destruct (nth_error (v_paths (g_vfs g)) f) as [p|]; [|reflexivity]. rewrite seen_one. destruct (uri_dec (UFile p) u); reflexivity. }
    rewrite K. cbn [filter]. destruct (sel f); reflexivity. }
  rewrite !E. f_equal. apply perm_short; [now apply filter_perm|].
  assert (NF : NoDup (filter sel l)) by now apply NoDup_filter.
  assert (AL : forall a b, In a (filter sel l) -> In b (filter sel l) -> a = b).
  { intros a b Ia Ib. apply filter_In in Ia as [_ Ia], Ib as [_ Ib]. unfold sel in Ia, Ib. destruct (nth_error (v_paths (g_vfs g)) a) as [p|] eqn:Ea; [|discriminate]. destruct (nth_error (v_paths (g_vfs g)) b) as [q|] eqn:Eb; [|discriminate].
    destruct (uri_dec (UFile p) u) as [<-|]; [|discriminate]. destruct (uri_dec (UFile q) (UFile p)) as [X|]; [|discriminate]. injection X as ->. apply index_of_nth in Ea, Eb; auto. congruence. }
  destruct (filter sel l) as [|x [|y r]]; cbn; try lia. exfalso. inversion NF as [|? ? NI _]; subst. apply NI. left. symmetry. apply AL; cbn; auto.
Qed.
Lemma diagnostics_for_sim c d f : csim c d -> diagnostics_for c f = diagnostics_for d f.
Proof. intros [A1 A2 A3 A4]. unfold diagnostics_for. now rewrite A1, A2. Qed.
Lemma publish_sim l l' g h g' : sim g h -> NoDup l -> Permutation l l' -> publish g l = Ok g' -> exists h', publish h l' = Ok h' /\ sim g' h'.
Proof.
  intros SI N P H. apply publish_say in H as [A ->]. destruct SI as [R NP ND T D S]. assert (Ev : g_vfs h = g_vfs g) by (injection R; congruence). assert (Em : g_mem_docs h = g_mem_docs g) by (injection R; congruence).
  destruct (publish_total l' h) as [h' H']; [intros f I; rewrite Ev; apply A; apply (Permutation_in f (Permutation_sym P) I)|]. exists h'. split; [exact H'|]. apply publish_say in H' as [_ ->].
  assert (ES : flat_map (say h) l' = flat_map (say g) l') by (apply flat_map_ext; intros f; unfold say; now rewrite Ev, Em, (diagnostics_for_sim _ _ f D)).
  constructor; cbn; auto. intros u. rewrite ES, !seen_app, S. f_equal. now apply say_perm.
Qed.
Lemma after_sim o1 o2 g h g' : valid o1 -> valid o2 -> sim g h -> after_any o1 g = Ok g' -> exists h', after_any o2 h = Ok h' /\ sim g' h'.
Proof.
  intros V1 V2 SI H. unfold after_any in *. apply rbind_inv in H as ([g1 ch] & H1 & H). apply rbind_inv in H as (g2 & H2 & H).
  assert (X1 : exists h1, process_changes h = Ok (h1, ch) /\ sim g1 h1).
  { destruct SI as [R NP ND T D S]. assert (Ev : g_vfs h = g_vfs g) by (injection R; congruence). assert (Ed : g_db h = g_db g) by (injection R; congruence). unfold process_changes in *. rewrite Ev, Ed. unfold v_take_changes in *.
    destruct (v_changes (g_vfs g)) as [|x l].
    - injection H1 as <- <-. eexists. split; [reflexivity|]. constructor; cbn; auto. rest_tac R.
    - apply rbind_inv in H1 as (c & H1 & H3). rewrite H1. cbn [rbind]. injection H3 as <- <-. eexists. split; [reflexivity|]. constructor; cbn; auto. rest_tac R. }
  destruct X1 as (h1 & -> & S1). cbn [rbind].
  assert (X2 : exists h2, (if ch then maybe_update_any o2 h1 else Ok h1) = Ok h2 /\ sim g2 h2) by (destruct ch; [exact (update_sim o1 o2 g1 h1 g2 V1 V2 S1 H2)|injection H2 as <-; exists h1; auto]).
  destruct X2 as (h2 & -> & S2). cbn [rbind]. pose proof (si_diags _ _ S2) as [C1 C2 C3 C4]. unfold coll_take_changes in *.
  destruct (co_changes (g_diagnostics g2)) as [|f l] eqn:E.
  - apply Permutation_nil in C3. rewrite C3. injection H as <-. eexists. split; [reflexivity|]. destruct S2 as [R NP ND T D S]. constructor; cbn; auto.
  - destruct (co_changes (g_diagnostics h2)) as [|f' l'] eqn:E'; [apply Permutation_sym, Permutation_nil in C3; discriminate|].
    eapply (publish_sim (o_files o1 (f :: l))); [| | |exact H].
    + destruct S2 as [R NP ND T D S]. constructor; cbn; auto. constructor; cbn; auto. constructor.
    + apply (Permutation_NoDup (Permutation_sym (proj2 V1 (f :: l))) C4).
    + etransitivity; [apply (proj2 V1)|]. etransitivity; [exact C3|]. symmetry. apply (proj2 V2).
Qed.
Lemma handle_sim o1 o2 e g h g' : valid o1 -> valid o2 -> sim g h -> handle_any o1 g e = Ok g' -> exists h', handle_any o2 h e = Ok h' /\ sim g' h'.
Proof.
  intros V1 V2 SI H. unfold handle_any in *. apply rbind_inv in H as (g1 & H1 & H). destruct (dispatch_sim o1 o2 e g h g1 V1 V2 SI H1) as (h1 & -> & S1). cbn [rbind]. now apply (after_sim o1 o2 g1).
Qed.
Lemma run_any_cons o e es g : e <> ELsp (MNot NExit) -> run_any g ((o, e) :: es) = let? g := handle_any o g e in run_any g es.
Proof. intros N. cbn [run_any]. destruct e as [[q|[]|r]| |m ms]; try reflexivity. contradiction. Qed.
Lemma exit_dec e : e = ELsp (MNot NExit) \/ e <> ELsp (MNot NExit).
Proof. destruct e as [[q|[]|r]| |m ms]; try (right; discriminate). now left. Qed.
Lemma run_sim es : forall os1 os2 g h g', Forall valid os1 -> Forall valid os2 -> length os1 = length es -> length os2 = length es -> sim g h -> run_any g (combine os1 es) = Ok g' ->
  exists h', run_any h (combine os2 es) = Ok h' /\ sim g' h'.
Proof.
  induction es as [|e es IH]; intros [|o1 os1] [|o2 os2] g h g' F1 F2 L1 L2 SI H; try discriminate L1; try discriminate L2; [injection H as <-; exists h; auto|].
  inversion F1 as [|? ? V1 F1']; inversion F2 as [|? ? V2 F2']; subst. cbn [combine] in *. destruct (exit_dec e) as [->|N]; [injection H as <-; exists h; auto|].
  rewrite run_any_cons in * by exact N. apply rbind_inv in H as (g1 & H1 & H). destruct (handle_sim o1 o2 e g h g1 V1 V2 SI H1) as (h1 & -> & S1). cbn [rbind]. injection L1 as L1. injection L2 as L2. eapply (IH os1); eauto.
Qed.
Lemma fixed_handle e g : handle_any fixed g e = handle_event g e.
Proof. destruct e as [[q|[]|r]| |m ms]; reflexivity. Qed.
Lemma fixed_run es : forall g, run_any g (combine (repeat fixed (length es)) es) = run g es.
Proof.
  induction es as [|e es IH]; intros g; [reflexivity|]. cbn [length repeat combine]. destruct (exit_dec e) as [->|N]; [reflexivity|]. rewrite run_any_cons, run_cons by exact N. rewrite fixed_handle. destruct (handle_event g e); [|reflexivity|reflexivity]. apply IH.
Qed.
Lemma fixed_valid : valid fixed.
Proof. split; intros l; apply Permutation_refl. Qed.

(** C85: whatever orders the hash maps and sets have, event by event, the server survives the same
    histories, and what a client sees that follows one document (all answers and requests, and that
    document's diagnostics, in order) is the same; so are the open documents, the files, the texts
    that are analysed, the pending requests and what the loader is told. *)
Theorem C85_any_order : forall c es os, length os = length es -> Forall valid os ->
  match run (g_new c) es, run_any (g_new c) (combine os es) with
  | Ok g, Ok h =>
      (forall u, seen u (g_sent h) = seen u (g_sent g)) /\
      g_mem_docs h = g_mem_docs g /\ g_vfs h = g_vfs g /\ g_db h = g_db g /\ g_incoming h = g_incoming g /\ g_outgoing h = g_outgoing g /\
      g_shutdown h = g_shutdown g /\ g_config h = g_config g /\ g_loads h = g_loads g
  | Ok _, _ | _, Ok _ => False
  | _, _ => True
  end.
Proof.
  intros c es os L F. assert (S0 : sim (g_new c) (g_new c)).
  { constructor; cbn; auto; try constructor; auto. constructor. }
  assert (LF : length (repeat fixed (length es)) = length es) by apply repeat_length.
  assert (FF : Forall valid (repeat fixed (length es))) by (apply Forall_forall; intros o I; apply repeat_spec in I as ->; apply fixed_valid).
  pose proof (run_sim es (repeat fixed (length es)) os (g_new c) (g_new c)) as A. rewrite fixed_run in A.
  pose proof (run_sim es os (repeat fixed (length es)) (g_new c) (g_new c)) as B. rewrite fixed_run in B.
  destruct (run (g_new c) es) as [g| |] eqn:E1.
  - destruct (A g FF F LF L S0 eq_refl) as (h & -> & [R NP ND T D S]). split; [intros u; symmetry; apply S|]. injection R as R1 R2 R3 R4 R5 R6 R7 R8 R9 R10. repeat split; congruence.
  - destruct (run_any (g_new c) (combine os es)) as [h| |] eqn:E2; auto. destruct (B h F FF L LF S0 eq_refl) as (g & X & _). discriminate X.
  - destruct (run_any (g_new c) (combine os es)) as [h| |] eqn:E2; auto. destruct (B h F FF L LF S0 eq_refl) as (g & X & _). discriminate X.
Qed.
Print Assumptions C85_any_order.

(** Two open documents with errors, in the other order: the messages are sent in the other order, each
    document sees the same. *)
Definition backwards : orders := mkOrders (@rev (path * Z)) (@rev nat).
Lemma backwards_valid : valid backwards.
Proof. split; intros l; symmetry; apply Permutation_rev. Qed.
Definition C85_events : list event :=
  [ELsp (MNot (NOpen (UFile "/a.lua"%string) 1 (txt "x ="))); ELsp (MNot (NOpen (UFile "/b.lua"%string) 1 (txt "y = )"))); ETask].
Example C85_ex : match run (g_new []) C85_events, run_any (g_new []) (combine (repeat backwards 3) C85_events) with
  | Ok g, Ok h => g_sent g = rev (g_sent h) /\ length (g_sent g) = 2 /\ length (seen (UFile "/a.lua"%string) (g_sent h)) = 1
  | _, _ => False end.
Proof. vm_compute. repeat split. Qed.
