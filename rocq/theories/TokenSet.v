(** TokenSet.v — crates/parser/src/token_set.rs: a 128-bit set of syntax kinds. *)
From Verif Require Import Base SyntaxKind.

(** token_set.rs:23 [TokenSet(u128)]. *)
Definition token_set := N.

(** token_set.rs:58-60 [mask]: [1u128 << (kind as usize)]. All kinds are < 128
    (kind_to_u16_lt), so the shift neither overflows nor wraps. *)
Definition mask (k : kind) : token_set := N.shiftl 1 (kind_to_u16 k).

(** token_set.rs:26. *)
Definition ts_empty : token_set := 0%N.

(** token_set.rs:28-36 [TokenSet::new]. *)
Definition ts_new (ks : list kind) : token_set :=
  fold_left (fun acc k => N.lor acc (mask k)) ks 0%N.

(** token_set.rs:38-40 [union]. *)
Definition ts_union (a b : token_set) : token_set := N.lor a b.

(** token_set.rs:42-44 [contains]: [self.0 & mask(kind) != 0]. *)
Definition ts_contains (s : token_set) (k : kind) : bool :=
  negb (N.eqb (N.land s (mask k)) 0).

Lemma ts_contains_testbit s k : ts_contains s k = N.testbit s (kind_to_u16 k).
Proof.
  unfold ts_contains, mask. rewrite N.shiftl_1_l.
  destruct (N.testbit s (kind_to_u16 k)) eqn:E.
  - apply negb_true_iff, N.eqb_neq. intros H.
    assert (Hb : N.testbit (N.land s (2 ^ kind_to_u16 k)) (kind_to_u16 k) = false)
      by (rewrite H; apply N.bits_0).
    rewrite N.land_spec, E, N.pow2_bits_true in Hb. discriminate.
  - apply negb_false_iff, N.eqb_eq. apply N.bits_inj_iff. intros n.
    rewrite N.land_spec, N.bits_0.
    destruct (N.eq_dec n (kind_to_u16 k)) as [->|Hn]; [now rewrite E|].
    rewrite N.pow2_bits_false by congruence. apply andb_false_r.
Qed.

Lemma ts_union_contains a b k :
  ts_contains (ts_union a b) k = ts_contains a k || ts_contains b k.
Proof. rewrite !ts_contains_testbit. apply N.lor_spec. Qed.

Lemma ts_empty_contains k : ts_contains ts_empty k = false.
Proof. rewrite ts_contains_testbit. apply N.bits_0. Qed.

Lemma mask_contains j k : ts_contains (mask j) k = kind_eqb j k.
Proof.
  rewrite ts_contains_testbit. unfold mask. rewrite N.shiftl_1_l.
  destruct (kind_eqb_spec j k) as [->|Hn].
  - apply N.pow2_bits_true.
  - apply N.pow2_bits_false. intros H. apply Hn, kind_to_u16_inj; congruence.
Qed.

Lemma ts_new_contains ks k : ts_contains (ts_new ks) k = existsb (fun j => kind_eqb j k) ks.
Proof.
  unfold ts_new.
  enough (H : forall acc, ts_contains (fold_left (fun a j => N.lor a (mask j)) ks acc) k
                = ts_contains acc k || existsb (fun j => kind_eqb j k) ks).
  { rewrite H. change 0%N with ts_empty. now rewrite ts_empty_contains. }
  induction ks as [|j ks IH]; intros acc; simpl; [now rewrite orb_false_r|].
  rewrite IH. change (N.lor acc (mask j)) with (ts_union acc (mask j)).
  rewrite ts_union_contains, mask_contains. now rewrite orb_assoc.
Qed.
