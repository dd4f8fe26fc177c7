(** PropsLoader.v — library files reach the server, configurations reach the loader (C61–C63). *)
From Coq Require Import ZArith.
From Verif Require Import Base TextEdit LineIndex Vfs Ide Server Session PropsVfs PropsIde ServerInv PropsServer Loader.

(** * Lua files *)
(** A Lua file by its name: some non-empty stem followed by .lua, below some directory or not. *)
Definition no_slash (s : string) : Prop := ~ In "/"%char (list_ascii_of_string s).
Definition lua_file (p : path) : Prop :=
  exists dir stem, p = (dir ++ stem ++ ".lua")%string /\ stem <> ""%string /\ no_slash stem /\ (dir = ""%string \/ exists d, dir = (d ++ "/")%string).

Lemma existsb_slash s : existsb (Ascii.eqb "/") (list_ascii_of_string s) = true <-> In "/"%char (list_ascii_of_string s).
Proof.
  rewrite existsb_exists. split; [intros (x & H & E); apply Ascii.eqb_eq in E; now subst|]. intros H. exists "/"%char. split; [exact H|apply Ascii.eqb_refl].
Qed.
Lemma laos_app a b : list_ascii_of_string (a ++ b) = list_ascii_of_string a ++ list_ascii_of_string b.
Proof. induction a as [|c a IH]; cbn; [reflexivity|]. now rewrite IH. Qed.
Lemma sapp_assoc (a b c : string) : ((a ++ b) ++ c = a ++ (b ++ c))%string.
Proof. induction a as [|x a IH]; cbn; [reflexivity|]. now rewrite IH. Qed.
Lemma sapp_nil (a : string) : (a ++ "")%string = a.
Proof. induction a as [|x a IH]; cbn; [reflexivity|]. now rewrite IH. Qed.
(** The file name is what follows the last separator. *)
Lemma file_name_spec p : exists dir, p = (dir ++ file_name p)%string /\ no_slash (file_name p) /\ (dir = ""%string \/ exists d, dir = (d ++ "/")%string).
Proof.
  induction p as [|c p IH]; cbn [file_name].
  - exists ""%string. split; [reflexivity|]. split; [intros []|now left].
  - destruct (Ascii.eqb_spec c "/") as [->|N].
    + destruct IH as (dir & E & Ns & D). exists (String "/" dir). cbn. rewrite <- E. split; [reflexivity|]. split; [exact Ns|]. right. destruct D as [->|[d ->]]; [exists ""%string; reflexivity|exists (String "/" d); reflexivity].
    + destruct (existsb (Ascii.eqb "/") (list_ascii_of_string p)) eqn:X.
      * destruct IH as (dir & E & Ns & D). exists (String c dir). cbn. rewrite <- E. split; [reflexivity|]. split; [exact Ns|]. right. destruct D as [->|[d ->]]; [|exists (String c d); reflexivity].
        apply existsb_slash in X. cbn in E. rewrite E in X. contradiction.
      * exists ""%string. cbn. split; [reflexivity|]. split; [|now left]. intros [E|H]; [congruence|]. apply existsb_slash in H. congruence.
Qed.
Lemma file_name_app d s : no_slash s -> file_name ((d ++ "/") ++ s) = s.
Proof.
  intros N. rewrite sapp_assoc. assert (F : file_name s = s). { destruct s as [|c s]; [reflexivity|]. cbn [file_name]. destruct (Ascii.eqb_spec c "/") as [->|]; [elim N; now left|]. destruct (existsb _ _) eqn:X; [|reflexivity]. apply existsb_slash in X. elim N. now right. }
  induction d as [|c d IH]; cbn [append file_name]; [exact F|]. destruct (Ascii.eqb c "/"); [exact IH|].
  assert (X : existsb (Ascii.eqb "/") (list_ascii_of_string (d ++ "/" ++ s)) = true) by (apply existsb_slash; rewrite laos_app; apply in_app_iff; right; now left). cbn [append] in X. rewrite X. exact IH.
Qed.
Lemma file_name_id s : no_slash s -> file_name s = s.
Proof.
  intros N. destruct s as [|c s]; [reflexivity|]. cbn [file_name]. destruct (Ascii.eqb_spec c "/") as [->|]; [elim N; now left|]. destruct (existsb _ _) eqn:X; [|reflexivity]. apply existsb_slash in X. elim N. now right.
Qed.
Lemma rsplit_none s : rsplit_dot s = None <-> ~ In "."%char (list_ascii_of_string s).
Proof.
  induction s as [|c s IH]; cbn [rsplit_dot list_ascii_of_string In]; [tauto|]. destruct (rsplit_dot s) as [[a b]|].
  - split; [discriminate|]. intros H. exfalso. destruct IH as [_ IH]. discriminate IH. tauto.
  - destruct (Ascii.eqb_spec c "."); [split; [discriminate|intros H; exfalso; apply H; now left]|]. split; [|reflexivity]. intros _ [H|H]; [congruence|]. now apply IH.
Qed.
Lemma rsplit_some s a b : rsplit_dot s = Some (a, b) <-> s = (a ++ "." ++ b)%string /\ ~ In "."%char (list_ascii_of_string b).
Proof.
  revert a b. induction s as [|c s IH]; intros a b; cbn [rsplit_dot]; [split; [discriminate|intros [H _]; destruct a; discriminate]|].
  destruct (rsplit_dot s) as [[x y]|] eqn:E.
  - pose proof (proj1 (IH x y) eq_refl) as [Es Ny]. split.
    + intros H. injection H as <- <-. cbn. rewrite Es. auto.
    + intros [H Nb]. destruct a as [|c' a]; cbn in H; injection H as -> H; [exfalso; apply Nb; rewrite <- H, Es, laos_app; apply in_app_iff; right; now left|].
      assert (E2 : Some (x, y) = Some (a, b)) by (apply IH; auto). congruence.
  - apply rsplit_none in E. destruct (Ascii.eqb_spec c ".") as [->|N].
    + split; [intros H; injection H as <- <-; auto|]. intros [H Nb]. destruct a as [|c' a]; cbn in H; [injection H as <-; reflexivity|injection H as H1 H2]. exfalso. apply E. rewrite H2, laos_app. apply in_app_iff. right. now left.
    + split; [discriminate|]. intros [H Nb]. exfalso. destruct a as [|c' a]; cbn in H; injection H as H1 H2; [congruence|]. apply E. rewrite H2, laos_app. apply in_app_iff. right. now left.
Qed.
(** The loader's extension test is exactly that. *)
Theorem C61_lua_files : forall p, is_lua p = true <-> lua_file p.
Proof.
  intros p. unfold is_lua, extension, lua_file. rewrite String.eqb_eq. split.
  - intros H. destruct (file_name_spec p) as (dir & E & Ns & D). destruct (rsplit_dot (file_name p)) as [[[|c a] e]|] eqn:R; try discriminate. subst e. apply rsplit_some in R as [R _]. exists dir, (String c a). rewrite R in E. split; [exact E|]. split; [discriminate|]. split; [|exact D].
    unfold no_slash in *. rewrite R, laos_app in Ns. intros X. apply Ns. apply in_app_iff. now left.
  - intros (dir & stem & -> & Nst & Ns & D). assert (F : file_name (dir ++ stem ++ ".lua") = (stem ++ ".lua")%string).
    { assert (Ns' : no_slash (stem ++ ".lua")) by (unfold no_slash in *; rewrite laos_app; intros X; apply in_app_iff in X as [X|X]; [contradiction|]; cbn in X; intuition discriminate).
      destruct D as [->|[d ->]]; [now apply file_name_id|now apply file_name_app]. }
    rewrite F. assert (R : rsplit_dot (stem ++ ".lua") = Some (stem, "lua"%string)) by (apply rsplit_some; split; [reflexivity|cbn; intuition discriminate]). rewrite R. destruct stem; [contradiction|reflexivity].
Qed.
Example C61_lua_files_ex : (lua_file "/lib/a.b.lua" /\ ~ lua_file "/lib/.lua" /\ ~ lua_file "/lib.lua/x" /\ ~ lua_file "/lib/x.luac")%string.
Proof. rewrite <- !C61_lua_files. repeat split; vm_compute; discriminate || reflexivity. Qed.
Print Assumptions C61_lua_files.

(** * Configurations *)
Definition loads (g : gstate) := (g_config g, g_config_version g, g_loads g).
Lemma respond_loads id o g : loads (respond id o g) = loads g.
Proof. unfold respond. destruct (aget _ _ _); reflexivity. Qed.
Lemma task_loads g : loads (handle_task g) = loads g.
Proof.
  unfold handle_task. enough (G : forall l g, loads (fold_left run_task l g) = loads g) by (rewrite G; reflexivity).
  induction l as [|t l IH]; intros g'; cbn [fold_left]; [reflexivity|]. rewrite IH. destruct t; [apply respond_loads|reflexivity].
Qed.
Lemma request_loads g q : loads (on_request g q) = loads g.
Proof.
  unfold on_request. destruct (g_shutdown _); [now rewrite respond_loads|]. destruct (String.eqb _ _); [destruct (q_params q); now rewrite respond_loads|].
  destruct (String.eqb _ _); [destruct (q_params q); [reflexivity|now rewrite respond_loads]|now rewrite respond_loads].
Qed.
Lemma maybe_loads g g' : maybe_update_diagnostics g = Ok g' -> loads g' = loads g.
Proof. intros H. apply rbind_inv in H as (s & _ & H). apply rbind_inv in H as (ds & _ & H). injection H as <-. reflexivity. Qed.
Lemma publish_loads l : forall g g', publish g l = Ok g' -> loads g' = loads g.
Proof. induction l as [|f l IH]; intros g g' H; cbn [publish] in H; [injection H as <-; auto|]. apply rbind_inv in H as (p & _ & H). apply IH in H. exact H. Qed.
Lemma after_loads g g' : after_event g = Ok g' -> loads g' = loads g.
Proof.
  intros H. unfold after_event in H. apply rbind_inv in H as ([g1 b] & H1 & H). apply rbind_inv in H as (g2 & H2 & H).
  assert (E1 : loads g1 = loads g). { unfold process_changes in H1. destruct (v_take_changes _) as [v [|x l]]; [injection H1 as <- <-; reflexivity|]. apply rbind_inv in H1 as (ch & _ & H1). injection H1 as <- <-. reflexivity. }
  assert (E2 : loads g2 = loads g1) by (destruct b; [now apply maybe_loads|now injection H2 as <-]).
  destruct (coll_take_changes (g_diagnostics g2)) as [c l]. destruct l as [l|]; [apply publish_loads in H; rewrite H; transitivity (loads g2); [reflexivity|congruence]|injection H as <-; rewrite <- E1, <- E2; reflexivity].
Qed.
Lemma files_loads l : forall g g', load_files g l = Ok g' -> loads g' = loads g.
Proof. induction l as [|[p c] l IH]; intros g g' H; cbn [load_files] in H; [now injection H as <-|]. destruct (aget _ _ _); [eauto|]. apply rbind_inv in H as ([v b] & _ & H). apply IH in H. exact H. Qed.
Lemma vfs_loads ms : forall g g', handle_vfs g ms = Ok g' -> loads g' = loads g.
Proof. induction ms as [|[|l] ms IH]; intros g g' H; cbn [handle_vfs] in H; [now injection H as <-|eauto|]. apply rbind_inv in H as (g1 & H1 & H). apply files_loads in H1. apply IH in H. congruence. Qed.

(** The libraries a settings object asks for: the strings of the array at workspace.library, and none
    if there is no such array of strings. *)
Definition asks (j : json) (l : list path) : Prop :=
  exists w a, json_get "workspace" j = Some w /\ json_get "library" w = Some (JArr a) /\ a = map JStr l.
Definition Wants (j : json) (l : list path) : Prop := asks j l \/ (forall l', ~ asks j l') /\ l = [].
(** The client's settings: an answer of the client that is an error or has no first element changes
    nothing, and neither does null or the empty object; anything else replaces the libraries. *)
Definition empty_settings (j : json) : Prop := j = JNull \/ j = JObj [].
Inductive Settings : config -> event -> config -> Prop :=
| Se_set c i j js l : ~ empty_settings j -> Wants j l -> Settings c (ELsp (MResp (mkResp i false (Some (JArr (j :: js)))))) l
| Se_none c i j js : empty_settings j -> Settings c (ELsp (MResp (mkResp i false (Some (JArr (j :: js)))))) c
| Se_other c e : (forall i j js, e <> ELsp (MResp (mkResp i false (Some (JArr (j :: js)))))) -> Settings c e c.
(** The successive configurations, [c] first. *)
Inductive Configs : config -> list event -> list config -> Prop :=
| Co_nil c : Configs c [] []
| Co_cons c e c1 es l : Settings c e c1 -> Configs c1 es l -> Configs c (e :: es) (c1 :: l).
(** Dropping the repetitions. *)
Fixpoint news (c : config) (l : list config) : list config :=
  match l with [] => [] | x :: l' => if list_eq_dec string_dec x c then news c l' else x :: news x l' end.

Lemma strings_spec a : forall l, strings a = Some l <-> a = map JStr l.
Proof.
  induction a as [|x a IH]; intros l; cbn [strings]; [split; [intros H; injection H as <-; reflexivity|destruct l; [reflexivity|discriminate]]|].
  destruct x; try (split; [discriminate|destruct l; discriminate]). destruct (strings a) as [ss|]; cbn.
  - split; [intros H; injection H as <-; cbn; f_equal; now apply IH|]. destruct l as [|y l]; [discriminate|]. intros H. injection H as <- H. apply IH in H. congruence.
  - split; [discriminate|]. destruct l as [|y l]; [discriminate|]. intros H. injection H as <- H. apply IH in H. discriminate.
Qed.
Lemma config_from_spec j : Wants j (config_from_json j).
Proof.
  unfold config_from_json. destruct (json_get "workspace" j) as [w|] eqn:E1; [|right; split; [|reflexivity]; intros l' (w & a & X & _); congruence].
  destruct (json_get "library" w) as [x|] eqn:E2; [|right; split; [|reflexivity]; intros l' (w' & a & X & Y & _); congruence].
  unfold as_strings. destruct x as [| | |a|]; try (right; split; [|reflexivity]; intros l' (w' & a' & X & Y & _); congruence).
  destruct (strings a) as [l|] eqn:E3; [left; exists w, a; apply strings_spec in E3; auto|]. right. split; [|reflexivity]. intros l' (w' & a' & X & Y & Z). assert (EA : a' = a) by congruence. rewrite EA in Z. apply strings_spec in Z. congruence.
Qed.
Lemma wants_det j l l' : Wants j l -> Wants j l' -> l = l'.
Proof.
  intros [A|[N ->]] [B|[N' ->]]; try reflexivity; [|elim (N' _ A)|elim (N _ B)]. destruct A as (w & a & X & Y & Z), B as (w' & a' & X' & Y' & Z'). assert (E : map JStr l = map JStr l') by congruence.
  clear -E. revert l' E. induction l as [|x l IH]; intros [|y l'] E; try discriminate; [reflexivity|]. injection E as -> E. f_equal. auto.
Qed.
Lemma update_spec c j c' : (empty_settings j /\ c' = c \/ ~ empty_settings j /\ Wants j c') -> config_update c j = c'.
Proof.
  unfold empty_settings. intros [[[->| ->] ->]|[N W]]; try reflexivity. assert (E : config_update c j = config_from_json j) by (unfold config_update; destruct j as [| | | |[|x l]]; try reflexivity; elim N; auto).
  rewrite E. eapply wants_det; [apply config_from_spec|exact W].
Qed.
(** The state of the configuration, for initial configuration [c0]. *)
Definition linv (c0 : config) (g : gstate) : Prop :=
  map fst (g_loads g) = seq 1 (length (g_loads g)) /\ g_config_version g = length (g_loads g) /\ last (map snd (g_loads g)) c0 = g_config g /\ Forall (fun x => Forall (fun p => is_absolute p = true) (snd x)) (g_loads g).

Lemma update_loads c g g' : update_configuration c g = Ok g' -> g_config g' = c /\
  (c = g_config g /\ g_loads g' = g_loads g /\ g_config_version g' = g_config_version g \/
   c <> g_config g /\ g_config_version g' = S (g_config_version g) /\ g_loads g' = g_loads g ++ [(S (g_config_version g), c)] /\ Forall (fun p => is_absolute p = true) c).
Proof.
  unfold update_configuration. destruct (list_eq_dec string_dec c (g_config g)) as [E|N]; [intros H; injection H as <-; cbn; auto|].
  destruct (forallb is_absolute c) eqn:A; cbn [rassert rbind]; [|discriminate]. intros H. apply rbind_inv in H as (n & Hn & H). injection H as <-. cbn. unfold uadd in Hn. destruct (fits_u32 _); [|discriminate]. injection Hn as <-. replace (g_config_version g + 1) with (S (g_config_version g)) by lia.
  split; [reflexivity|]. right. repeat split; auto. apply Forall_forall. now apply forallb_forall.
Qed.
Lemma dispatch_loads g e g' c' : dispatch_event g e = Ok g' -> Settings (g_config g) e c' ->
  g_config g' = c' /\
  (c' = g_config g /\ g_loads g' = g_loads g /\ g_config_version g' = g_config_version g \/
   c' <> g_config g /\ g_config_version g' = S (g_config_version g) /\ g_loads g' = g_loads g ++ [(S (g_config_version g), c')] /\ Forall (fun p => is_absolute p = true) c').
Proof.
  intros H C. assert (Q : loads g' = loads g -> c' = g_config g -> g_config g' = c' /\ (c' = g_config g /\ g_loads g' = g_loads g /\ g_config_version g' = g_config_version g \/ c' <> g_config g /\ g_config_version g' = S (g_config_version g) /\ g_loads g' = g_loads g ++ [(S (g_config_version g), c')] /\ Forall (fun p => is_absolute p = true) c')).
  { intros E ->. injection E as E1 E2 E3. auto. }
  destruct e as [[q|n|r]| |v vs]; cbn [dispatch_event handle_lsp] in H.
  - injection H as <-. apply Q; [apply request_loads|inversion C; auto].
  - apply Q; [|inversion C; auto]. destruct n as [u z t|u z cs|u|u| | | |k]; cbn [on_notification] in H; try discriminate; try (injection H as <-; reflexivity).
    + unfold did_open in H. destruct (abs_path u); [|now injection H as <-]. apply rbind_inv in H as ([v b] & _ & H). destruct b; [injection H as <-; reflexivity|]. apply maybe_loads in H. exact H.
    + unfold did_change in H. destruct (abs_path u); [|now injection H as <-]. destruct (aget _ _ _); [|now injection H as <-]. do 5 (apply rbind_inv in H as (? & _ & H)). apply rbind_inv in H as ([v b] & _ & H). injection H as <-. reflexivity.
    + injection H as <-. unfold did_close. destruct (abs_path u); reflexivity.
  - unfold complete_request in H. apply rbind_inv in H as (? & _ & H). unfold on_config_response in H. destruct r as [i er rs]. cbn [s_error s_result s_id] in H.
    assert (U : forall j js, er = false -> rs = Some (JArr (j :: js)) -> config_update (g_config g) j = c').
    { intros j js -> ->. apply update_spec. inversion C; subst; [right; auto|left; auto|]. exfalso. eapply H0. reflexivity. }
    destruct er; [injection H as <-; apply Q; [reflexivity|inversion C; auto]|]. destruct rs as [[| | |[|j js]|]|]; try (injection H as <-; apply Q; [reflexivity|inversion C; auto]).
    specialize (U j js eq_refl eq_refl). rewrite <- U. cbn [g_config with_outgoing] in H. apply update_loads in H. exact H.
  - injection H as <-. apply Q; [apply task_loads|inversion C; auto].
  - apply Q; [now apply vfs_loads in H|inversion C; auto].
Qed.
Lemma handle_loads g e g' c' : handle_event g e = Ok g' -> Settings (g_config g) e c' ->
  g_config g' = c' /\
  (c' = g_config g /\ g_loads g' = g_loads g /\ g_config_version g' = g_config_version g \/
   c' <> g_config g /\ g_config_version g' = S (g_config_version g) /\ g_loads g' = g_loads g ++ [(S (g_config_version g), c')] /\ Forall (fun p => is_absolute p = true) c').
Proof. intros H C. apply rbind_inv in H as (g1 & H1 & H). apply after_loads in H. injection H as -> -> ->. now apply dispatch_loads with (e := e). Qed.
Lemma settings_total c e : exists c', Settings c e c'.
Proof.
  destruct e as [[q|n|[i er rs]]| |v vs]; try (exists c; apply Se_other; intros; discriminate). destruct er; [exists c; apply Se_other; intros; discriminate|]. destruct rs as [[| | |[|j js]|]|]; try (exists c; apply Se_other; intros; discriminate).
  assert (D : empty_settings j \/ ~ empty_settings j) by (unfold empty_settings; destruct j as [| | | |[|]]; auto; right; intros [|]; discriminate). destruct D as [D|D]; [exists c; now apply Se_none|]. exists (config_from_json j). apply Se_set; [exact D|apply config_from_spec].
Qed.

Lemma last_cons_default {A} (l : list A) : forall x d, last (x :: l) d = last l x.
Proof. induction l as [|y l IH]; intros x d; [reflexivity|]. transitivity (last (y :: l) d); [reflexivity|]. transitivity (last l y); [apply IH|symmetry; apply IH]. Qed.

(** C62: the loader is given exactly the configurations that differ from their predecessor, in order,
    numbered from 1, and the last one is the server's configuration. *)
Theorem C62_configurations : forall c es g l, run (g_new c) es = Ok g -> ~ In (ELsp (MNot NExit)) es -> Configs c es l ->
  g_loads g = combine (seq 1 (length (news c l))) (news c l) /\ g_config g = last l c.
Proof.
  intros c es g l H N C.
  enough (G : forall es g g' l, run g es = Ok g' -> ~ In (ELsp (MNot NExit)) es -> Configs (g_config g) es l ->
     g_loads g' = g_loads g ++ combine (seq (S (g_config_version g)) (length (news (g_config g) l))) (news (g_config g) l) /\ g_config g' = last l (g_config g)).
  { destruct (G es (g_new c) g l H N C) as [E1 E2]. cbn in E1, E2. auto. }
  clear. induction es as [|e es IH]; intros g g' l H N C; inversion C as [?|? ? c1 ? l0 Hs Hc]; subst; [injection H as <-; cbn; now rewrite app_nil_r|].
  rewrite run_cons in H by (intros ->; apply N; now left). apply rbind_inv in H as (g1 & H1 & H). destruct (handle_loads _ _ _ _ H1 Hs) as [E1 E2]. subst c1.
  destruct (IH g1 g' l0 H (fun X => N (or_intror X)) Hc) as [E3 E4]. cbn [news]. assert (EL : last (g_config g1 :: l0) (g_config g) = last l0 (g_config g1)) by apply last_cons_default.
  rewrite EL. split; [|exact E4]. destruct E2 as [(X1 & X2 & X3)|(X1 & X2 & X3 & X4)].
  - destruct (list_eq_dec string_dec (g_config g1) (g_config g)) as [E|]; [|contradiction]. rewrite E3, X2, X3, X1. reflexivity.
  - destruct (list_eq_dec string_dec (g_config g1) (g_config g)) as [E|]; [contradiction|]. rewrite E3, X2, X3. cbn [length seq combine]. now rewrite <- app_assoc.
Qed.
Theorem C62_defined : forall c es, exists l, Configs c es l.
Proof.
  intros c es. revert c. induction es as [|e es IH]; intros c; [exists []; constructor|]. destruct (settings_total c e) as [c' S1]. destruct (IH c') as [l C]. exists (c' :: l). econstructor; eauto.
Qed.
(** Every root the loader is given is absolute. *)
Theorem C62_absolute : forall c es g v roots root, run (g_new c) es = Ok g -> In (v, roots) (g_loads g) -> In root roots -> exists s, root = String "/"%char s.
Proof.
  intros c es g v roots root H I1 I2. enough (G : forall es g g', run g es = Ok g' -> Forall (fun x => Forall (fun p => is_absolute p = true) (snd x)) (g_loads g) -> Forall (fun x => Forall (fun p => is_absolute p = true) (snd x)) (g_loads g')).
  { specialize (G es (g_new c) g H (Forall_nil _)). rewrite Forall_forall in G. specialize (G _ I1). rewrite Forall_forall in G. specialize (G _ I2). destruct root as [|a s]; [discriminate|]. cbn in G. apply Ascii.eqb_eq in G. subst a. eauto. }
  clear. induction es as [|e es IH]; intros g g' H F; [now injection H as <-|]. assert (D : e = ELsp (MNot NExit) \/ e <> ELsp (MNot NExit)) by (destruct e as [[q|[]|r]| |v vs]; try (right; discriminate); now left).
  destruct D as [->|D]; [now injection H as <-|]. rewrite run_cons in H by exact D. apply rbind_inv in H as (g1 & H1 & H). apply (IH g1 g' H). destruct (settings_total (g_config g) e) as [c' S1]. destruct (handle_loads _ _ _ _ H1 S1) as [_ [(_ & -> & _)|(_ & _ & -> & A)]]; [exact F|]. apply Forall_app. split; [exact F|]. constructor; [exact A|constructor].
Qed.
(** The libraries of the initialization options. *)
Inductive Initial : option json -> list path -> Prop :=
| In_none : Initial None []
| In_empty j : empty_settings j -> Initial (Some j) []
| In_set j l : ~ empty_settings j -> Wants j l -> Initial (Some j) l.
Lemma initial_spec o l : Initial o l <-> initial_config o = l.
Proof.
  split.
  - intros [|j E|j l' N W]; [reflexivity| |]; cbn [initial_config]; apply update_spec; auto.
  - intros <-. destruct o as [j|]; [|constructor]. cbn [initial_config].
    assert (D : empty_settings j \/ ~ empty_settings j).
    { unfold empty_settings. destruct j as [| | | |[|x l]]; try (left; now left); try (left; now right); right; intros [E|E]; discriminate. }
    destruct D as [D|D].
    + replace (config_update [] j) with (@nil path) by (symmetry; apply update_spec; auto). now constructor.
    + apply In_set; [exact D|]. replace (config_update [] j) with (config_from_json j); [apply config_from_spec|]. symmetry. apply update_spec. right. split; [exact D|apply config_from_spec].
Qed.
Lemma in_news c l : forall c0, In c (news c0 l) <-> exists a x b, c0 :: l = a ++ x :: c :: b /\ x <> c.
Proof.
  induction l as [|y l IH]; intros c0; cbn [news].
  - split; [intros []|]. intros ([|z [|z' a]] & x & b & E & _); discriminate E.
  - assert (K : In c (news y l) -> exists a x b, c0 :: y :: l = a ++ x :: c :: b /\ x <> c).
    { intros H. apply IH in H as (a & x & b & E & N). exists (c0 :: a), x, b. cbn. now rewrite E. }
    assert (K' : (exists a x b, c0 :: y :: l = a ++ x :: c :: b /\ x <> c) -> y = c /\ c0 <> c \/ In c (news y l)).
    { intros ([|z a] & x & b & E & N).
      - cbn in E. injection E as -> -> _. now left.
      - cbn in E. injection E as _ E. right. apply IH. now exists a, x, b. }
    destruct (list_eq_dec string_dec y c0) as [->|D]; split.
    + exact K.
    + intros H. apply K' in H as [[-> N]|H]; [contradiction|exact H].
    + intros [->|H]; [|exact (K H)]. exists [], c0, l. split; [reflexivity|congruence].
    + intros H. apply K' in H as [[-> N]|H]; [now left|now right].
Qed.
(** C65 exactly: the libraries of the options are loaded if and only if the client's settings first
    change to others and then back. *)
Theorem C65_exactly : forall o l0 es g l, Initial o l0 -> run (g_new (initial_config o)) es = Ok g -> ~ In (ELsp (MNot NExit)) es -> Configs l0 es l ->
  ((exists v, In (v, l0) (g_loads g)) <-> exists a x b, l = a ++ x :: l0 :: b /\ x <> l0).
Proof.
  intros o l0 es g l I H N C. apply initial_spec in I. rewrite I in H. destruct (C62_configurations l0 es g l H N C) as [-> _].
  assert (M : forall n (L : list config), (exists v, In (v, l0) (combine (seq n (length L)) L)) <-> In l0 L).
  { intros n L. revert n. induction L as [|y L IH]; intros n; cbn; [split; [intros [v []]|intros []]|]. rewrite <- (IH (S n)). split.
    - intros [v [E|E]]; [left; congruence|right; now exists v].
    - intros [->|[v E]]; [exists n; now left|exists v; now right]. }
  rewrite M, in_news. split.
  - intros ([|z a] & x & b & E & D).
    + cbn in E. injection E as -> _. contradiction.
    + cbn in E. injection E as _ E. now exists a, x, b.
  - intros (a & x & b & -> & D). now exists (l0 :: a), x, b.
Qed.
Print Assumptions C65_exactly.
(** In particular never, as long as the settings stay what they were initially. *)
Theorem C65_initial_never : forall o l0 es g l, Initial o l0 -> run (g_new (initial_config o)) es = Ok g -> ~ In (ELsp (MNot NExit)) es -> Configs l0 es l ->
  Forall (fun x => x = l0) l -> g_loads g = [].
Proof.
  intros o c es g l I H N C F. apply initial_spec in I. rewrite I in H. destruct (C62_configurations c es g l H N C) as [-> _]. replace (news c l) with (@nil config); [reflexivity|]. clear -F. induction F as [|x l -> F IH]; [reflexivity|]. cbn [news]. destruct (list_eq_dec string_dec c c); [exact IH|contradiction].
Qed.
Definition lib_settings (ps : list path) : json := JObj [("workspace"%string, JObj [("library"%string, JArr (map JStr ps))])].
Definition config_events (ps : list path) (i : Z) : list event := [ELsp (MNot NConfig); ELsp (MResp (mkResp (RNum i) false (Some (JArr [lib_settings ps]))))].
(** REFUTED: the libraries of the initialization options are loaded. *)
Definition C65_claim : Prop := forall o l0 es g, Initial o l0 -> run (g_new (initial_config o)) es = Ok g -> l0 <> [] -> g_config g = l0 ->
  exists v, In (v, l0) (g_loads g).
Theorem C65_refuted : ~ C65_claim.
Proof.
  intros H. specialize (H (Some (lib_settings ["/lib"%string])) ["/lib"%string] (config_events ["/lib"%string] 0)).
  destruct (run (g_new (initial_config (Some (lib_settings ["/lib"%string])))) (config_events ["/lib"%string] 0)) as [g| |] eqn:E; vm_compute in E; try discriminate. injection E as <-.
  specialize (H _ (proj2 (initial_spec (Some (lib_settings ["/lib"%string])) ["/lib"%string]) eq_refl) eq_refl). cbn in H. destruct H as [v []]; [discriminate|reflexivity].
Qed.
Example C65_ex_back : match run (g_new (initial_config (Some (lib_settings ["/lib"%string])))) (config_events ["/a"%string] 0 ++ config_events ["/lib"%string] 1) with
  | Ok g => g_loads g = [(1, ["/a"]); (2, ["/lib"])]%string | _ => False end.
Proof. vm_compute. reflexivity. Qed.
Example C62_ex : match run (g_new []) (config_events ["/a"%string] 0 ++ config_events ["/a"%string] 1 ++ config_events ["/b"; "/a"]%string 2) with
  | Ok g => g_loads g = [(1, ["/a"]); (2, ["/b"; "/a"])]%string | _ => False end.
Proof. vm_compute. reflexivity. Qed.
Print Assumptions C62_configurations.
Print Assumptions C62_defined.
Print Assumptions C62_absolute.
Print Assumptions C65_initial_never.
Print Assumptions C65_refuted.
