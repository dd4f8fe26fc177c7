(** PropsSmall.v — properties of the small support libraries: token sets (C55), syntax kind
    numbers (C56), accept combinators (C57), binding powers (C58). *)
From Verif Require Import Base SyntaxKind TokenSet Accept BindingPowers.

(** * C55 Token sets are exact finite sets *)
Theorem C55_new_contains : forall ks k, ts_contains (ts_new ks) k = true <-> In k ks.
Proof.
  intros ks k. rewrite ts_new_contains, existsb_exists. split.
  - intros (j & Hj & E). apply kind_eqb_eq in E. now subst.
  - intros H. exists k. split; [exact H|apply kind_eqb_refl].
Qed.
Print Assumptions C55_new_contains.

Theorem C55_union_contains : forall a b k, ts_contains (ts_union a b) k = true <-> ts_contains a k = true \/ ts_contains b k = true.
Proof. intros a b k. rewrite ts_union_contains. apply orb_true_iff. Qed.
Print Assumptions C55_union_contains.

Theorem C55_empty_contains : forall k, ts_contains ts_empty k = false.
Proof. exact ts_empty_contains. Qed.
Print Assumptions C55_empty_contains.

(** Every set built by new and union is a u128. *)
Inductive built : token_set -> Prop :=
| built_empty : built ts_empty
| built_new ks : built (ts_new ks)
| built_union a b : built a -> built b -> built (ts_union a b).
Lemma fits_lor a b n : (a < 2 ^ n -> b < 2 ^ n -> N.lor a b < 2 ^ n)%N.
Proof.
  intros Ha Hb. destruct (N.eq_dec (N.lor a b) 0) as [->|Hz]; [apply N.neq_0_lt_0, N.pow_nonzero; discriminate|].
  apply N.log2_lt_pow2; [now apply N.neq_0_lt_0|]. rewrite N.log2_lor. apply N.max_lub_lt.
  - destruct (N.eq_dec a 0) as [->|Ha0]; [|apply N.log2_lt_pow2; [now apply N.neq_0_lt_0|exact Ha]].
    change (N.log2 0) with 0%N. apply N.neq_0_lt_0. intros ->. rewrite N.pow_0_r in *. apply Hz. now replace b with 0%N by lia.
  - destruct (N.eq_dec b 0) as [->|Hb0]; [|apply N.log2_lt_pow2; [now apply N.neq_0_lt_0|exact Hb]].
    change (N.log2 0) with 0%N. apply N.neq_0_lt_0. intros ->. rewrite N.pow_0_r in *. apply Hz. now replace a with 0%N by lia.
Qed.
Theorem C55_fits_u128 : forall s, built s -> (s < 2 ^ 128)%N.
Proof.
  induction 1 as [|ks|a b _ IHa _ IHb]; [reflexivity| |now apply fits_lor].
  unfold ts_new. enough (G : forall acc, (acc < 2 ^ 128 -> fold_left (fun a k => N.lor a (mask k)) ks acc < 2 ^ 128)%N) by (apply G; reflexivity).
  induction ks as [|k ks IH]; intros acc Ha; cbn [fold_left]; [exact Ha|]. apply IH, fits_lor; [exact Ha|].
  unfold mask. rewrite N.shiftl_1_l. apply N.pow_lt_mono_r; [reflexivity|apply kind_to_u16_lt].
Qed.
Print Assumptions C55_fits_u128.

Example C55_case : ts_contains (ts_union (ts_new [KPlus; KMinus]) (ts_new [KStr])) KStr = true /\
  ts_contains (ts_union (ts_new [KPlus; KMinus]) (ts_new [KStr])) KComma = false.
Proof. split; reflexivity. Qed.

(** * C56 Syntax kinds survive conversion to and from raw integers *)
Theorem C56_round_trip : forall k, kind_from_u16 (kind_to_u16 k) = Ok k.
Proof. destruct k; reflexivity. Qed.
Print Assumptions C56_round_trip.

Theorem C56_distinct : forall a b, kind_to_u16 a = kind_to_u16 b -> a = b.
Proof. exact kind_to_u16_inj. Qed.
Print Assumptions C56_distinct.

(** A number is either the number of the kind it converts to, or conversion panics; it panics
    exactly above the last kind. *)
Theorem C56_only_valid : forall d, (d <= kind_to_u16 KLAST -> exists k, kind_from_u16 d = Ok k /\ kind_to_u16 k = d)%N /\
  (kind_to_u16 KLAST < d -> kind_from_u16 d = Panic)%N.
Proof.
  intros d. split; intros H.
  - assert (G : forall n, n < 128 -> (N.of_nat n <= kind_to_u16 KLAST)%N -> exists k, kind_from_u16 (N.of_nat n) = Ok k /\ kind_to_u16 k = N.of_nat n).
    { intros n Hn Hl. do 128 (destruct n as [|n]; [first [exfalso; revert Hl; vm_compute; now intro Q; apply Q | eexists; split; [vm_compute; reflexivity|reflexivity]]|]). lia. }
    pose proof (kind_to_u16_lt KLAST). specialize (G (N.to_nat d)). rewrite N2Nat.id in G. apply G; [lia|exact H].
  - unfold kind_from_u16. destruct (N.leb_spec d (kind_to_u16 KLAST)); [lia|reflexivity].
Qed.
Print Assumptions C56_only_valid.

Example C56_case : kind_from_u16 (kind_to_u16 KBlock) = Ok KBlock /\ kind_from_u16 500 = Panic.
Proof. split; reflexivity. Qed.

(** * C58 Binding powers order operators as declared *)

(** The powers a table gives to a declared operator, and what a declaration fixes: an operator
    id together with its fixity. *)
Definition powers (t : list precs) (d : nat * prec_type) : list nat :=
  match d with
  | (i, PInfix _) => [fst (get_infix t i); snd (get_infix t i)]
  | (i, PPrefix) => [get_prefix t i]
  | (i, PPostfix) => [get_postfix t i]
  end.
Inductive fixity := FInfix | FPrefix | FPostfix.
Definition slot (d : nat * prec_type) : nat * fixity :=
  (fst d, match snd d with PInfix _ => FInfix | PPrefix => FPrefix | PPostfix => FPostfix end).
(** How many powers a declaration takes. *)
Definition width (d : nat * prec_type) : nat := match snd d with PInfix _ => 2 | _ => 1 end.

Definition get_slot (t : list precs) (s : nat * fixity) : nat * nat :=
  match s with (i, FInfix) => get_infix t i | (i, FPrefix) => (get_prefix t i, 0) | (i, FPostfix) => (get_postfix t i, 0) end.

Lemma arr_update_spec {A} (l : list A) i f r : arr_update l i f = Ok r ->
  i < length l /\ length r = length l /\ nth_error r i = option_map f (nth_error l i) /\ (forall j, j <> i -> nth_error r j = nth_error l j).
Proof.
  revert i r. induction l as [|x l IH]; intros [|i] r H; cbn [arr_update] in H; try discriminate.
  - injection H as <-. cbn. repeat split; [lia|]. intros [|j] Hj; [lia|reflexivity].
  - apply rbind_ok in H as (r' & H & E). injection E as <-. destruct (IH _ _ H) as (H1 & H2 & H3 & H4). cbn [length nth_error].
    repeat split; [lia|lia|exact H3|]. intros [|j] Hj; [reflexivity|]. apply H4. lia.
Qed.
Lemma arr_update_total {A} (l : list A) i f : i < length l -> exists r, arr_update l i f = Ok r.
Proof.
  revert i. induction l as [|x l IH]; intros [|i] H; cbn in H; try lia; cbn [arr_update]; [eauto|].
  destruct (IH i) as (r & ->); [lia|]. cbn. eauto.
Qed.
Lemma u8_incr_ok c d : u8_incr c = Ok d -> d = S c /\ c <> 255.
Proof. unfold u8_incr. destruct (Nat.eqb_spec c 255); [discriminate|]. now injection 1 as <-. Qed.

(** What the declaration [d] writes when the counter is [c]. *)
Definition written (c : nat) (d : nat * prec_type) : nat * nat :=
  match snd d with PInfix ALeft => (c + 1, c + 2) | PInfix ARight => (c + 2, c + 1) | _ => (c + 1, 0) end.
Lemma bp_step t c d rest t' : bp_loop t c (d :: rest) = Ok t' ->
  exists t1, bp_loop t1 (c + width d) rest = Ok t' /\ get_slot t1 (slot d) = written c d /\
    (forall s, s <> slot d -> get_slot t1 s = get_slot t s) /\ length t1 = length t /\ (c <= 255 -> c + width d <= 255).
Proof.
  destruct d as [i ty]. intros H. unfold slot, written, width. cbn [fst snd].
  destruct ty as [a| |]; cbn [bp_loop] in H.
  all: apply rbind_ok in H as (x & H1 & H); apply u8_incr_ok in H1 as [-> H1].
  1: apply rbind_ok in H as (y & H2 & H); apply u8_incr_ok in H2 as [-> H2].
  all: apply rbind_ok in H as (t1 & Hu & H); apply arr_update_spec in Hu as (L & Hlen & Hi & Hj); exists t1.
  all: destruct (nth_error t i) as [p|] eqn:Et; [|apply nth_error_None in Et; lia]; cbn in Hi.
  1: replace (c + 2) with (S (S c)) by lia. 2,3: replace (c + 1) with (S c) by lia.
  all: split; [exact H|]; split; [|split; [|split; [exact Hlen|intros; lia]]].
  1: cbn [get_slot]; unfold get_infix; rewrite Hi; cbn [pr_infix]; destruct a; f_equal; lia.
  2: cbn [get_slot]; unfold get_prefix; rewrite Hi; reflexivity.
  3: cbn [get_slot]; unfold get_postfix; rewrite Hi; reflexivity.
  all: intros [j f] Hs; destruct (Nat.eq_dec j i) as [->|Hne].
  all: destruct f; try congruence; cbn [get_slot]; unfold get_infix, get_prefix, get_postfix; try (rewrite Hi, Et; reflexivity); rewrite (Hj _ Hne); reflexivity.
Qed.

Lemma bp_keeps l : forall t c t' s, bp_loop t c l = Ok t' -> ~ In s (map slot l) -> get_slot t' s = get_slot t s.
Proof.
  induction l as [|d l IH]; intros t c t' s H Hs; [now injection H as <-|].
  apply bp_step in H as (t1 & H & _ & Hk & _). cbn in Hs. rewrite (IH _ _ _ s H); [|tauto]. apply Hk. intuition.
Qed.
Fixpoint widths (l : list (nat * prec_type)) : nat := match l with [] => 0 | d :: l' => width d + widths l' end.
Lemma widths_app a b : widths (a ++ b) = widths a + widths b.
Proof. induction a; cbn; lia. Qed.
Lemma bp_at pre d post t c t' : bp_loop t c (pre ++ d :: post) = Ok t' -> NoDup (map slot (pre ++ d :: post)) ->
  get_slot t' (slot d) = written (c + widths pre) d.
Proof.
  revert t c. induction pre as [|x pre IH]; intros t c H ND; cbn [app] in H.
  - apply bp_step in H as (t1 & H & Hw & _). cbn in ND. apply NoDup_cons_iff in ND as [Hn _].
    rewrite (bp_keeps _ _ _ _ _ H Hn), Hw. cbn. f_equal. lia.
  - apply bp_step in H as (t1 & H & _). cbn [app map] in ND. apply NoDup_cons_iff in ND as [_ ND].
    rewrite (IH _ _ H ND). cbn. f_equal. lia.
Qed.
Lemma bp_max l : forall t c t', bp_loop t c l = Ok t' -> c <= 255 -> c + widths l <= 255.
Proof.
  induction l as [|d l IH]; intros t c t' H Hc; cbn; [lia|]. apply bp_step in H as (t1 & H & _ & _ & _ & Hw). specialize (IH _ _ _ H (Hw Hc)). lia.
Qed.
Lemma powers_range t c d : get_slot t (slot d) = written c d -> Forall (fun p => c < p <= c + width d) (powers t d).
Proof.
  destruct d as [i [[]| |]]; unfold slot, written, width; cbn [fst snd get_slot powers]; intros E; try rewrite E; try injection E as E; try rewrite E; repeat constructor; cbn; lia.
Qed.

Theorem C58_later_binds_tighter : forall n decls t, bp_new n decls = Ok t -> NoDup (map slot decls) ->
  forall pre d mid d' post, decls = pre ++ d :: mid ++ d' :: post ->
  forall p p', In p (powers t d) -> In p' (powers t d') -> p < p'.
Proof.
  intros n decls t H ND pre d mid d' post -> p p' Hp Hp'. unfold bp_new in H.
  pose proof (bp_at _ _ _ _ _ _ H ND) as H1. apply powers_range in H1.
  rewrite (app_comm_cons mid), app_assoc in H, ND.
  assert (E : pre ++ d :: mid ++ d' :: post = (pre ++ d :: mid) ++ d' :: post) by (rewrite <- app_assoc; reflexivity).
  pose proof (bp_at (pre ++ d :: mid) d' post _ _ _ H ND) as H2. apply powers_range in H2.
  rewrite Forall_forall in H1, H2. specialize (H1 _ Hp). specialize (H2 _ Hp'). rewrite widths_app in H2. cbn [widths] in H2. lia.
Qed.
Print Assumptions C58_later_binds_tighter.

Theorem C58_associativity : forall n decls t, bp_new n decls = Ok t -> NoDup (map slot decls) ->
  forall i a, In (i, PInfix a) decls ->
  match a with ALeft => fst (get_infix t i) < snd (get_infix t i) | ARight => snd (get_infix t i) < fst (get_infix t i) end.
Proof.
  intros n decls t H ND i a Hin. apply in_split in Hin as (pre & post & ->). pose proof (bp_at _ _ _ _ _ _ H ND) as E.
  cbn [slot fst snd get_slot] in E. rewrite E. destruct a; cbn; lia.
Qed.
Print Assumptions C58_associativity.

(** Every power of a declared operator is a u8 above LOWEST, so an expression parsed with
    LOWEST accepts every operator. *)
Theorem C58_powers_in_range : forall n decls t, bp_new n decls = Ok t -> NoDup (map slot decls) ->
  forall d p, In d decls -> In p (powers t d) -> LOWEST < p <= 255.
Proof.
  intros n decls t H ND d p Hin Hp. apply in_split in Hin as (pre & post & ->). pose proof (bp_at _ _ _ _ _ _ H ND) as E. apply powers_range in E.
  rewrite Forall_forall in E. specialize (E _ Hp). apply bp_max in H; [|lia]. rewrite widths_app in H. cbn [widths] in H. unfold LOWEST. lia.
Qed.
Print Assumptions C58_powers_in_range.

Theorem C58_undeclared : forall n decls t, bp_new n decls = Ok t -> forall i, i < n ->
  (~ In (i, FInfix) (map slot decls) -> get_infix t i = (NOT_AN_OP, NOT_AN_OP)) /\
  (~ In (i, FPrefix) (map slot decls) -> get_prefix t i = NOT_AN_OP) /\
  (~ In (i, FPostfix) (map slot decls) -> get_postfix t i = NOT_AN_OP).
Proof.
  intros n decls t H i Hi. unfold bp_new in H.
  assert (R : nth_error (repeat no_precs n) i = Some no_precs) by now apply nth_error_repeat.
  repeat split; intros Hs; pose proof (bp_keeps _ _ _ _ _ H Hs) as E; cbn [get_slot] in E; unfold get_infix, get_prefix, get_postfix in *; rewrite R in E; cbn in E; [exact E|now injection E|now injection E].
Qed.
Print Assumptions C58_undeclared.

(** Construction succeeds exactly when the ids fit the table and the powers fit a u8. *)
Theorem C58_total : forall n decls, (forall d, In d decls -> fst d < n) -> widths decls <= 254 -> exists t, bp_new n decls = Ok t.
Proof.
  intros n decls Hi Hw. unfold bp_new.
  assert (G : forall t c, (forall d, In d decls -> fst d < length t) -> c + widths decls <= 255 -> exists t', bp_loop t c decls = Ok t').
  { clear. induction decls as [|[i ty] l IH]; intros t c Hi Hc; [eexists; reflexivity|]. cbn [widths] in Hc. unfold width in Hc. cbn [snd] in Hc.
    assert (Hl : i < length t) by exact (Hi (i, ty) (or_introl eq_refl)).
    assert (U : forall c, c < 255 -> u8_incr c = Ok (S c)) by (intros k Hk; unfold u8_incr; destruct (Nat.eqb_spec k 255); [lia|reflexivity]).
    destruct ty as [a| |]; cbn [bp_loop]; rewrite U by lia; cbn [rbind]; [rewrite U by lia; cbn [rbind]| |].
    all: match goal with |- context [arr_update ?x ?y ?f] => destruct (arr_update_total x y f Hl) as (r & Hr); rewrite Hr; cbn [rbind]; apply arr_update_spec in Hr as (_ & Hr & _) end.
    all: apply IH; [intros d Hd; rewrite Hr; apply Hi; now right|lia]. }
  apply G; [rewrite repeat_length; exact Hi|lia].
Qed.
Print Assumptions C58_total.

Example C58_case : exists t, bp_new 2 [(0, PInfix ALeft); (0, PPrefix); (1, PInfix ARight)] = Ok t /\
  NoDup (map slot [(0, PInfix ALeft); (0, PPrefix); (1, PInfix ARight)]) /\
  get_infix t 0 = (2, 3) /\ get_prefix t 0 = 4 /\ get_infix t 1 = (6, 5) /\ get_postfix t 0 = 0.
Proof.
  eexists. split; [reflexivity|]. split; [|repeat split; reflexivity].
  repeat constructor; cbn; intuition discriminate.
Qed.
