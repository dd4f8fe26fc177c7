(** PropsPaths.v — C84 absolute paths. *)
From Verif Require Import Base Stdx PropsStdx Paths.

(** * Specification *)

(** A path as a list of steps: the text is cut at the separators; empty pieces and "." say nothing, ".." goes
    up ([part_component]). [steps] of the part after the root. *)
Definition steps (b : text) : list component := flat_map part_component (parts b).
(** An absolute path and where it leads from the root ([walk], C59). *)
Definition absolute (t : text) : Prop := exists b : text, t = 47%N :: b.
Definition leads (t : text) : list text := walk [] (components t).

(** * Proofs *)
Lemma absolute_is t : is_absolute t = true <-> absolute t.
Proof.
  unfold absolute. destruct t as [|c t]; cbn [is_absolute]; [split; [discriminate|intros [b X]; discriminate]|]. split; [intros X; apply N.eqb_eq in X as ->; eauto|]. intros [b X]. assert (c = 47%N) by congruence. subst. reflexivity.
Qed.
Lemma split_sep_app a : forall cur b, split_sep cur (a ++ 47%N :: b) = split_sep cur a ++ split_sep [] b.
Proof. induction a as [|c a IH]; intros cur b; cbn [app split_sep]; [reflexivity|]. destruct (N.eqb c 47); [cbn [app]; now rewrite IH|apply IH]. Qed.
Lemma steps_app a b : steps (a ++ 47%N :: b) = steps a ++ steps b.
Proof. unfold steps, parts. rewrite split_sep_app. apply flat_map_app. Qed.
Lemma steps_nil : steps [] = []. Proof. reflexivity. Qed.
Lemma steps_one a : ~ In 47%N a -> steps a = part_component a.
Proof. intros H. unfold steps, parts. rewrite split_end by exact H. cbn [app flat_map]. now rewrite app_nil_r. Qed.
Lemma components_abs b : components (47%N :: b) = RootDir :: steps b.
Proof. reflexivity. Qed.
Lemma part_single p : part_component p = match parse_single p with Some c => [c] | None => [] end.
Proof. unfold part_component, parse_single. destruct (text_eqb p []); [reflexivity|]. destruct (text_eqb p (txt ".")); [reflexivity|]. now destruct (text_eqb p (txt "..")). Qed.

Lemma split_first_spec t : match split_first t with Some (a, b) => t = a ++ 47%N :: b /\ ~ In 47%N a | None => ~ In 47%N t end.
Proof.
  induction t as [|c t IH]; cbn [split_first]; [intros []|]. destruct (N.eqb_spec c 47) as [->|N]; [split; [reflexivity|intros []]|]. destruct (split_first t) as [[a b]|]; cbn [option_map fst snd].
  - destruct IH as [-> H]. split; [reflexivity|]. intros [X|X]; congruence.
  - intros [X|X]; congruence.
Qed.
Lemma split_last_spec t : match split_last t with Some (a, b) => t = a ++ 47%N :: b /\ ~ In 47%N b | None => ~ In 47%N t end.
Proof.
  induction t as [|c t IH]; cbn [split_last]; [intros []|]. destruct (split_last t) as [[a b]|]; cbn [fst snd].
  - destruct IH as [-> H]. split; [reflexivity|exact H].
  - destruct (N.eqb_spec c 47) as [->|N]; [split; [reflexivity|exact IH]|]. intros [X|X]; congruence.
Qed.

Lemma next_body_spec fuel : forall t, length t <= fuel -> match next_body fuel t with Some (c, rest) => steps t = c :: steps rest /\ length rest < length t | None => steps t = [] end.
Proof.
  induction fuel as [|fuel IH]; intros t L; destruct t as [|x t0]; try reflexivity; [cbn in L; lia|]. cbn [next_body]. set (t := x :: t0) in *. assert (Lt : length t = S (length t0)) by reflexivity. pose proof (split_first_spec t) as S. destruct (split_first t) as [[a b]|].
  - destruct S as [E H]. assert (Ll : length t = length a + S (length b)) by (rewrite E, app_length; reflexivity). rewrite E, steps_app, (steps_one a H), part_single. destruct (parse_single a) as [c|]; [split; [reflexivity|rewrite <- E; lia]|]. cbn [app]. specialize (IH b ltac:(lia)). destruct (next_body fuel b) as [[c r]|]; [|exact IH]. destruct IH as [E1 E2]. split; [exact E1|rewrite <- E; lia].
  - rewrite (steps_one t S), part_single. destruct (parse_single t) as [c|]; [split; [reflexivity|cbn [length]; lia]|]. specialize (IH [] ltac:(cbn; lia)). destruct fuel; exact IH.
Qed.
Lemma next_back_spec fuel : forall t, length t <= fuel -> match next_back_body fuel t with Some (rest, c) => steps t = steps rest ++ [c] | None => steps t = [] end.
Proof.
  induction fuel as [|fuel IH]; intros t L; destruct t as [|x t0]; try reflexivity; [cbn in L; lia|]. cbn [next_back_body]. set (t := x :: t0) in *. assert (Lt : length t = S (length t0)) by reflexivity. pose proof (split_last_spec t) as S. destruct (split_last t) as [[a b]|].
  - destruct S as [E H]. assert (Ll : length t = length a + S (length b)) by (rewrite E, app_length; reflexivity). rewrite E, steps_app, (steps_one b H), part_single. destruct (parse_single b) as [c|]; [reflexivity|]. rewrite app_nil_r. exact (IH a ltac:(lia)).
  - rewrite (steps_one t S), part_single. destruct (parse_single t) as [c|]; [reflexivity|]. specialize (IH [] ltac:(cbn; lia)). destruct fuel; exact IH.
Qed.
Lemma trim_right_spec fuel : forall t, length t <= fuel -> steps (trim_right fuel t) = steps t.
Proof.
  induction fuel as [|fuel IH]; intros t L; destruct t as [|x t0]; try reflexivity. cbn [trim_right]. set (t := x :: t0) in *. assert (Lt : length t = S (length t0)) by reflexivity. pose proof (split_last_spec t) as S. destruct (split_last t) as [[a b]|].
  - destruct S as [E H]. assert (Ll : length t = length a + S (length b)) by (rewrite E, app_length; reflexivity). destruct (parse_single b) as [c|] eqn:P; [reflexivity|]. rewrite IH by lia. rewrite E, steps_app, (steps_one b H), part_single, P. now rewrite app_nil_r.
  - destruct (parse_single t) as [c|] eqn:P; [reflexivity|]. rewrite IH by (cbn; lia). now rewrite (steps_one t S), part_single, P.
Qed.
(** What trim_left leaves starts with a real component. *)
Definition starts_well (t : text) : Prop := t = [] \/ exists p, ~ In 47%N p /\ parse_single p <> None /\ (t = p \/ exists b, t = p ++ 47%N :: b).
Lemma trim_left_spec fuel : forall t, length t <= fuel -> steps (trim_left fuel t) = steps t /\ starts_well (trim_left fuel t).
Proof.
  induction fuel as [|fuel IH]; intros t L; destruct t as [|x t0]; try (split; [reflexivity|now left]). cbn [trim_left]. set (t := x :: t0) in *. assert (Lt : length t = S (length t0)) by reflexivity. pose proof (split_first_spec t) as S. destruct (split_first t) as [[a b]|].
  - destruct S as [E H]. assert (Ll : length t = length a + S (length b)) by (rewrite E, app_length; reflexivity). destruct (parse_single a) as [c|] eqn:P; [split; [reflexivity|]; right; exists a; rewrite P; split; [exact H|]; split; [discriminate|eauto]|].
    destruct (IH b ltac:(lia)) as [E1 E2]. split; [|exact E2]. rewrite E1, E, steps_app, (steps_one a H), part_single, P. reflexivity.
  - destruct (parse_single t) as [c|] eqn:P; [split; [reflexivity|]; right; exists t; rewrite P; split; [exact S|]; split; [discriminate|eauto]|]. destruct (IH [] ltac:(cbn; lia)) as [E1 E2]. split; [|exact E2]. now rewrite E1, (steps_one t S), part_single, P.
Qed.
Lemma parse_some_ne p : parse_single p <> None -> p <> [] /\ p <> txt ".".
Proof. unfold parse_single. intros H. split; intros ->; now elim H. Qed.
(** Trimming the end keeps the start. *)
Lemma trim_right_starts fuel : forall t, starts_well t -> starts_well (trim_right fuel t).
Proof.
  induction fuel as [|fuel IH]; intros t W; destruct t as [|x t0]; try (now left); [exact W|]. cbn [trim_right]. set (t := x :: t0) in *. pose proof (split_last_spec t) as S. destruct (split_last t) as [[a b]|] eqn:SL.
  - destruct (parse_single b); [exact W|]. apply IH. destruct S as [E H]. destruct W as [W|(p & N & P & [W|(b' & W)])]; [discriminate| |].
    + exfalso. apply N. rewrite <- W, E. apply in_app_iff. right. now left.
    + right. exists p. split; [exact N|]. split; [exact P|]. rewrite E in W. clear -W H N.
      revert a W. induction p as [|c p IHp]; intros a W; destruct a as [|d a]; cbn [app] in W.
      * now left.
      * injection W as -> W. right. exists a. reflexivity.
      * injection W as <- _. elim N. now left.
      * injection W as -> W. destruct (IHp (fun X => N (or_intror X)) a W) as [->|[b0 ->]]; [now left|]. right. now exists b0.
  - destruct W as [W|(p & N & P & [W|(b' & W)])]; [discriminate| |elim S; rewrite W; apply in_app_iff; right; now left]. rewrite W. destruct (parse_single p) eqn:Q; [|now elim P]. right. exists p. rewrite Q. split; [exact N|]. split; [discriminate|now left].
Qed.
Lemma starts_components t : starts_well t -> ~ absolute t /\ components t = steps t.
Proof.
  intros [->|(p & N & P & W)]; [split; [intros [b X]; discriminate|reflexivity]|]. apply parse_some_ne in P as [P1 P2].
  assert (Q' : exists ps, parts t = p :: ps).
  { destruct W as [->|[b ->]]; [exists []; unfold parts; now rewrite split_end by exact N|exists (parts b); unfold parts; now rewrite split_app by exact N]. }
  destruct Q' as [ps Q'].
  assert (H : exists c r, t = c :: r /\ c <> 47%N). { destruct p as [|c p]; [easy|]. exists c. assert (c <> 47%N) by (intros ->; apply N; now left). destruct W as [->|[b ->]]; cbn [app]; [exists p|exists (p ++ 47%N :: b)]; auto. }
  destruct H as (c & r & -> & Hc). split; [intros [b X]; congruence|]. unfold steps. rewrite Q'. unfold components. rewrite Q'. destruct (N.eqb_spec c 47) as [|_]; [contradiction|].
  destruct (text_eqb p (txt ".")) eqn:T; [apply text_eqb_eq in T; contradiction|]. reflexivity.
Qed.

Lemma body_components_spec fuel : forall t, length t <= fuel -> body_components fuel t = steps t.
Proof.
  induction fuel as [|fuel IH]; intros t L; cbn [body_components]; [destruct t; [reflexivity|cbn in L; lia]|].
  pose proof (next_body_spec (length t) t (Nat.le_refl _)) as H. destruct (next_body (length t) t) as [[c rest]|]; [|now rewrite H]. destruct H as [-> H]. rewrite IH by lia. reflexivity.
Qed.
Lemma iter_after_spec cs : forall t, Forall (fun c => match c with Normal _ | ParentDir => True | _ => False end) cs ->
  match iter_after cs t with Some rest => steps t = cs ++ steps rest | None => forall r, steps t <> cs ++ r end.
Proof.
  induction cs as [|y cs IH]; intros t F; cbn [iter_after]; [reflexivity|]. inversion F as [|? ? Fy Fc]; subst.
  pose proof (next_body_spec (length t) t (Nat.le_refl _)) as H. destruct (next_body (length t) t) as [[x rest]|]; [|intros r; rewrite H; discriminate]. destruct H as [-> _]. specialize (IH rest Fc).
  destruct x as [| | |a], y as [| | |b]; try contradiction; try (intros r X; discriminate).
  - destruct (iter_after cs rest) as [r|]; [now rewrite IH|]. intros r X. assert (X' : steps rest = cs ++ r) by (cbn [app] in X; congruence). now apply IH in X'.
  - destruct (text_eqb a b) eqn:E.
    + apply text_eqb_eq in E as ->. destruct (iter_after cs rest) as [r|]; [now rewrite IH|]. intros r X. assert (X' : steps rest = cs ++ r) by (cbn [app] in X; congruence). now apply IH in X'.
    + intros r X. assert (a = b) by (cbn [app] in X; congruence). subst. assert (text_eqb b b = true) by now apply text_eqb_eq. congruence.
Qed.
Lemma steps_kinds b : Forall (fun c => match c with Normal _ | ParentDir => True | _ => False end) (steps b).
Proof. eapply Forall_impl; [|apply parts_names]. intros [| | |s]; tauto. Qed.

(** * C84 *)

(** The conversions succeed exactly for absolute paths. *)
Theorem C84_checked : forall t, (abs_try_from t = Some t <-> absolute t) /\ (abs_try_from t = None <-> ~ absolute t) /\ (abs_assert t = Ok t <-> absolute t) /\ (abs_assert t = Panic <-> ~ absolute t).
Proof.
  intros t. unfold abs_try_from, abs_assert. rewrite <- absolute_is. destruct (is_absolute t); repeat split; try discriminate; try tauto; intros X; try discriminate; now elim X.
Qed.
Print Assumptions C84_checked.

(** The parent is the path without its last component; only the root has none. Popping is the same in
    place. Nothing panics. *)
Theorem C84_parent : forall t, absolute t ->
  (components t = [RootDir] /\ abs_parent t = Ok None /\ abs_pop t = (t, false)) \/
  (exists p c, absolute p /\ components t = components p ++ [c] /\ abs_parent t = Ok (Some p) /\ abs_pop t = (p, true)).
Proof.
  intros t [b ->]. unfold abs_parent, abs_pop, path_parent. pose proof (next_back_spec (length b) b (Nat.le_refl _)) as H. destruct (next_back_body (length b) b) as [[rest c]|].
  - right. exists (47%N :: trim_right (length rest) rest), c. split; [eexists; reflexivity|]. split; [|split; reflexivity]. rewrite !components_abs, H, trim_right_spec by lia. reflexivity.
  - left. rewrite components_abs, H. auto.
Qed.
Print Assumptions C84_parent.

(** Joining never panics. A path that is not absolute is followed from the base, with the components of the
    base in front; an absolute one replaces it. *)
Theorem C84_join : forall b p, absolute b -> exists j, abs_join b p = Ok j /\ absolute j /\
  (absolute p -> j = p) /\
  (~ absolute p -> leads j = walk (leads b) (components p) /\ exists l, (l = [] \/ l = [CurDir]) /\ components p = l ++ skipn (length (components b)) (components j) /\ components b = firstn (length (components b)) (components j)).
Proof.
  intros b p [b0 ->]. unfold abs_join. destruct (is_absolute p) eqn:A.
  - exists p. unfold path_push. rewrite A. unfold abs_try_from. rewrite A. cbn [runwrap]. split; [reflexivity|]. apply absolute_is in A. split; [exact A|]. split; [reflexivity|]. intros X. contradiction.
  - assert (NA : ~ absolute p) by (rewrite <- absolute_is; congruence).
    assert (J : exists e, path_push (47%N :: b0) p = 47%N :: e /\ steps e = steps b0 ++ steps p).
    { unfold path_push. rewrite A. cbn match. match goal with |- context [N.eqb ?x 47] => destruct (N.eqb_spec x 47) as [E|E] end.
      - exists (b0 ++ p). split; [reflexivity|]. destruct b0 as [|x b1] eqn:B; [reflexivity|]. assert (B1 : x :: b1 = removelast (x :: b1) ++ [47%N]). { rewrite <- E. change (last (47%N :: x :: b1) 0%N) with (last (x :: b1) 0%N). apply app_removelast_last. discriminate. }
        revert B1. generalize (removelast (x :: b1)). intros q B1. transitivity (steps (q ++ 47%N :: p)); [f_equal; rewrite B1, <- app_assoc; reflexivity|]. transitivity (steps (q ++ 47%N :: []) ++ steps p); [|now rewrite B1]. etransitivity; [exact (steps_app q p)|]. f_equal. etransitivity; [|symmetry; exact (steps_app q [])]. symmetry. exact (app_nil_r (steps q)).
      - exists (b0 ++ 47%N :: p). split; [reflexivity|apply steps_app]. }
    destruct J as (e & Je & Se). rewrite Je. exists (47%N :: e). split; [reflexivity|]. split; [eexists; reflexivity|]. split; [contradiction|]. intros _. unfold leads. rewrite !components_abs, Se. cbn [walk].
    assert (W : forall a c d, walk d (a ++ c) = walk (walk d a) c) by (induction a as [|[| | |]]; intros c d; cbn [app walk]; auto).
    assert (CP : exists l, (l = [] \/ l = [CurDir]) /\ components p = l ++ steps p).
    { destruct p as [|c p']; [exists []; auto|]. unfold components, steps. cbn in A. rewrite A. destruct (parts (c :: p')) as [|q qs] eqn:Q; [exists []; auto|]. destruct (text_eqb q (txt ".")) eqn:T; [exists [CurDir]; split; [now right|]|exists []; split; [now left|]]; cbn [flat_map]; [|reflexivity]. apply text_eqb_eq in T as ->. reflexivity. }
    destruct CP as (l & Hl & CP). split; [|exists l; split; [exact Hl|]].
    + rewrite W, CP. destruct Hl as [-> | ->]; reflexivity.
    + cbn [length skipn firstn]. rewrite skipn_app, skipn_all, firstn_app, firstn_all, Nat.sub_diag. cbn [skipn firstn app]. rewrite app_nil_r. auto.
Qed.
Print Assumptions C84_join.

(** Stripping a prefix succeeds exactly if the components of the base are the first components of the path;
    the result is relative, has the remaining components, and joining it to the base gives the path back (up to the
    spelling: same components, so equal paths). *)
Theorem C84_strip_prefix : forall t b, absolute t -> absolute b ->
  match abs_strip_prefix t b with
  | Some r => ~ absolute r /\ components t = components b ++ components r /\ exists j, abs_join b r = Ok j /\ components j = components t
  | None => forall l, components t <> components b ++ l
  end.
Proof.
  intros t b [t0 ->] [b0 ->]. unfold abs_strip_prefix. rewrite body_components_spec by lia. pose proof (iter_after_spec (steps b0) t0 (steps_kinds b0)) as H. destruct (iter_after (steps b0) t0) as [rest|].
  - set (l := trim_left (length rest) rest). destruct (trim_left_spec (length rest) rest (Nat.le_refl _)) as [L1 L2]. fold l in L1, L2. set (r := trim_right (length l) l). assert (R1 : steps r = steps l) by (unfold r; now apply trim_right_spec). assert (R2 : starts_well r) by (unfold r; now apply trim_right_starts).
    cbv zeta. fold r. destruct (starts_components r R2) as [NA C]. split; [exact NA|]. assert (E : components (47%N :: t0) = components (47%N :: b0) ++ components r) by (rewrite !components_abs, C, R1, L1, H; reflexivity). split; [exact E|].
    destruct (C84_join (47%N :: b0) r (ex_intro _ b0 eq_refl)) as (j & J & Aj & _ & J2). destruct (J2 NA) as (_ & l' & Hl & CP & CB). exists j. split; [exact J|]. rewrite E.
    assert (l' = []). { destruct Hl as [->| ->]; [reflexivity|]. rewrite C in CP. pose proof (steps_kinds r) as K. rewrite CP in K. inversion K; contradiction. } subst l'. cbn [app] in CP. rewrite CP. rewrite CB at 1. symmetry. apply firstn_skipn.
  - intros l X. rewrite !components_abs in X. apply (H l). cbn [app] in X. congruence.
Qed.
Print Assumptions C84_strip_prefix.

(** Normalizing, done on the text by pushing and popping, is absolute without a check and gives the path C59
    speaks of: the place the path leads to, spelled with names only. *)
Lemma abs_pop_joined d : Forall name_ok d -> forall ret, absolute ret -> components ret = RootDir :: map Normal d -> ret = render (RootDir :: map Normal d) -> fst (abs_pop ret) = render (RootDir :: map Normal (removelast d)).
Proof.
  intros F ret A C E. destruct d as [|s d] using rev_ind.
  - subst. reflexivity.
  - clear IHd. rewrite removelast_last. apply Forall_app in F as [F1 F2]. inversion F2 as [|? ? Fs _]; subst.
    assert (Ns : ~ In 47%N s) by apply Fs. assert (Ps : parse_single s = Some (Normal s)).
    { unfold parse_single. destruct Fs as (N1 & N2 & N3 & N4). assert (G : forall x, s <> x -> text_eqb s x = false) by (intros x Hx; destruct (text_eqb s x) eqn:T; [apply text_eqb_eq in T; contradiction|reflexivity]). now rewrite (G _ N1), (G _ N2), (G _ N3). }
    rewrite render_root by (try (apply Forall_app; split; [exact F1|repeat constructor; apply Fs]); destruct d; discriminate).
    unfold joined. rewrite flat_map_app. cbn [flat_map]. rewrite app_nil_r.
    destruct d as [|s0 d].
    + cbn [flat_map app map]. unfold abs_pop, path_parent. assert (B : next_back_body (length s) s = Some ([], Normal s)).
      { destruct s as [|c s]; [discriminate|]. cbn [length next_back_body]. pose proof (split_last_spec (c :: s)) as S. destruct (split_last (c :: s)) as [[a b]|]; [destruct S as [S _]; elim Ns; rewrite S; apply in_app_iff; right; now left|]. now rewrite Ps. }
      rewrite B. reflexivity.
    + inversion F1 as [|? ? Fs0 Fd]; subst. rewrite render_root by (auto; discriminate). set (b0 := (s0 ++ flat_map (fun s => 47%N :: s) d) : text).
      change (fst (abs_pop (47%N :: (b0 ++ 47%N :: s))) = 47%N :: b0). unfold abs_pop, path_parent.
      assert (SL : split_last (b0 ++ 47%N :: s) = Some (b0, s)).
      { clear -Ns. induction b0 as [|c b IH]; cbn [app split_last].
        - assert (X : split_last s = None) by (pose proof (split_last_spec s) as S; destruct (split_last s) as [[a b]|]; [destruct S as [S _]; elim Ns; rewrite S; apply in_app_iff; right; now left|reflexivity]). rewrite X. reflexivity.
        - rewrite IH. reflexivity. }
      assert (NB : next_back_body (length (b0 ++ 47%N :: s)) (b0 ++ 47%N :: s) = Some (b0, Normal s)).
      { destruct (b0 ++ 47%N :: s) as [|c r] eqn:Q; [destruct b0; discriminate|]. cbn [length next_back_body]. rewrite SL, Ps. reflexivity. }
      rewrite NB. cbn [fst]. f_equal.
      (* the rest ends in a name, so there is nothing to trim *)
      assert (TR : exists a n, b0 = a ++ n /\ name_ok n /\ (a = [] \/ exists a', a = a' ++ [47%N])).
      { unfold b0. clear -Fs0 Fd. destruct d as [|x d] using rev_ind; [exists [], s0; cbn; rewrite app_nil_r; auto|]. clear IHd. apply Forall_app in Fd as [_ Fx]. inversion Fx; subst. exists (s0 ++ flat_map (fun s => 47%N :: s) d ++ [47%N]), x. rewrite flat_map_app. cbn [flat_map]. rewrite app_nil_r, <- !app_assoc. split; [reflexivity|]. split; [assumption|]. right. exists (s0 ++ flat_map (fun s => 47%N :: s) d). now rewrite <- app_assoc. }
      destruct TR as (a & n & -> & Fn & Ha). assert (Pn : parse_single n = Some (Normal n)).
      { unfold parse_single. destruct Fn as (N1 & N2 & N3 & N4). assert (G : forall x, n <> x -> text_eqb n x = false) by (intros x Hx; destruct (text_eqb n x) eqn:T; [apply text_eqb_eq in T; contradiction|reflexivity]). now rewrite (G _ N1), (G _ N2), (G _ N3). }
      assert (Nn : ~ In 47%N n) by apply Fn. destruct Ha as [->|[a' ->]].
      * cbn [app]. destruct n as [|c n]; [discriminate|]. cbn [length trim_right]. pose proof (split_last_spec (c :: n)) as S. destruct (split_last (c :: n)) as [[a b]|]; [destruct S as [S _]; elim Nn; rewrite S; apply in_app_iff; right; now left|]. now rewrite Pn.
      * rewrite <- app_assoc. cbn [app]. assert (SL2 : split_last (a' ++ 47%N :: n) = Some (a', n)).
        { clear -Nn. induction a' as [|c b IH]; cbn [app split_last].
          - assert (X : split_last n = None) by (pose proof (split_last_spec n) as S; destruct (split_last n) as [[a b]|]; [destruct S as [S _]; elim Nn; rewrite S; apply in_app_iff; right; now left|reflexivity]). rewrite X. reflexivity.
          - rewrite IH. reflexivity. }
        destruct (a' ++ 47%N :: n) as [|c r] eqn:Q; [destruct a'; discriminate|]. cbn [length trim_right]. rewrite SL2, Pn. reflexivity.
Qed.
Lemma render_snoc d s : render (RootDir :: map Normal (d ++ [s])) = path_push (render (RootDir :: map Normal d)) s.
Proof. unfold render. rewrite map_app. cbn [map]. rewrite app_comm_cons, fold_left_app. reflexivity. Qed.
Lemma render_absolute d : Forall name_ok d -> absolute (render (RootDir :: map Normal d)).
Proof. intros F. destruct d as [|s d]; [exists []; reflexivity|]. rewrite render_root by (auto; discriminate). cbn [joined flat_map app]. eexists. reflexivity. Qed.
Lemma abs_normalize_render cs : forall d, Forall name_ok d -> Forall (fun c => match c with Normal s => name_ok s | ParentDir => True | _ => False end) cs ->
  fold_left abs_normalize_step cs (render (RootDir :: map Normal d)) = render (RootDir :: map Normal (walk d cs)).
Proof.
  induction cs as [|c cs IH]; intros d F FC; [reflexivity|]. inversion FC as [|? ? Fc Fcs]; subst. cbn [fold_left walk]. destruct c as [| | |s]; try contradiction; cbn [abs_normalize_step].
  - rewrite (abs_pop_joined d F); [apply IH; [|exact Fcs]|now apply render_absolute|now apply components_render|reflexivity]. destruct d as [|x d] using rev_ind; [constructor|]. rewrite removelast_last. apply Forall_app in F. tauto.
  - rewrite <- render_snoc. apply IH; [|exact Fcs]. apply Forall_app. split; [exact F|]. repeat constructor; apply Fc.
Qed.
Theorem C84_normalize : forall t, absolute t -> absolute (abs_normalize t) /\ Forall name_ok (leads t) /\ components (abs_normalize t) = RootDir :: map Normal (leads t) /\
  (abs_normalize t = joined (leads t) \/ leads t = [] /\ abs_normalize t = txt "/") /\ leads (abs_normalize t) = leads t /\ abs_normalize (abs_normalize t) = abs_normalize t.
Proof.
  assert (E : forall t, absolute t -> abs_normalize t = normalize_path t).
  { intros t [b ->]. unfold abs_normalize. rewrite body_components_spec by lia. cbn [fold_left abs_normalize_step]. change (path_push [] (txt "/")) with (render (RootDir :: map Normal [])). rewrite abs_normalize_render; [|constructor|apply parts_names].
    unfold normalize_path. rewrite components_abs. unfold normalize_components. cbn [fold_left normalize_step]. f_equal. symmetry. exact (normalize_walk (steps b) []). }
  intros t A. rewrite (E t A). pose proof A as A'. apply absolute_is in A'. destruct (C59_normalize t A') as (H1 & H2 & H3 & H4). apply absolute_is in H3. rewrite (E _ H3). split; [exact H3|]. split; [exact H1|]. split; [exact H2|]. split; [exact H4|]. split.
  - unfold leads at 1. rewrite H2. cbn [walk]. now rewrite walk_normal.
  - now apply C59_idempotent.
Qed.
Print Assumptions C84_normalize.

Example C84_case : abs_parent (txt "/a/b/.//") = Ok (Some (txt "/a")) /\ abs_parent (txt "//.") = Ok None /\ abs_join (txt "/a/b/") (txt "./../c") = Ok (txt "/a/b/./../c") /\ abs_strip_prefix (txt "/a/./b//c/") (txt "//a/b") = Some (txt "c") /\
  abs_strip_prefix (txt "/ab/c") (txt "/a") = None /\ abs_normalize (txt "/a/../../b/.//c//") = txt "/b/c" /\ abs_try_from (txt "a/b") = None.
Proof. vm_compute. repeat split; reflexivity. Qed.
