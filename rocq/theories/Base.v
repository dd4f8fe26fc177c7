(** Base.v — shared vocabulary of the model: panics as values, characters, texts,
    UTF-8 byte lengths and byte slicing, text ranges. *)
From Coq Require Export String Ascii.
From Coq Require Export List Arith NArith Bool Lia.
Export ListNotations.
Open Scope list_scope.
Open Scope nat_scope.

(** Result of running a piece of Rust code: normal return, a panic (assert!, unwrap,
    out-of-bounds index, unreachable!, debug arithmetic underflow), or divergence
    (a loop that does not end; the model's fuel ran out). *)
Inductive res (A : Type) : Type :=
| Ok (a : A)
| Panic
| OutOfFuel.
Arguments Ok {A} a.
Arguments Panic {A}.
Arguments OutOfFuel {A}.

Definition rbind {A B} (r : res A) (f : A -> res B) : res B :=
  match r with
  | Ok a => f a
  | Panic => Panic
  | OutOfFuel => OutOfFuel
  end.

Declare Scope res_scope.
Delimit Scope res_scope with res.
Notation "'let?' x ':=' e 'in' f" := (rbind e (fun x => f))
  (at level 200, x pattern, e at level 200, f at level 200, right associativity) : res_scope.
Open Scope res_scope.

(** [assert!(b)] / [if !b { panic!() }]. *)
Definition rassert (b : bool) : res unit := if b then Ok tt else Panic.

(** [Option::unwrap]. *)
Definition runwrap {A} (o : option A) : res A :=
  match o with Some a => Ok a | None => Panic end.

(** A Rust [char] is its code point. The model does not exclude non-scalar values: theorems
    quantify over all lists of N. *)
Definition char := N.
(** A Rust [str]: the sequence of its chars. *)
Definition text := list char.

(** [char::len_utf8]. *)
Definition utf8_len (c : char) : nat :=
  if (c <? 128)%N then 1
  else if (c <? 2048)%N then 2
  else if (c <? 65536)%N then 3
  else 4.

(** [char::len_utf16]. *)
Definition utf16_len (c : char) : nat := if (c <? 65536)%N then 1 else 2.

(** [str::len]: length in bytes. *)
Fixpoint blen (t : text) : nat :=
  match t with
  | [] => 0
  | c :: t' => utf8_len c + blen t'
  end.

(** Splitting a str at a byte offset; [None] when the offset is out of range or not on a char
    boundary (where Rust's [&s[..n]] panics). *)
Fixpoint bsplit (n : nat) (t : text) : option (text * text) :=
  match n with
  | 0 => Some ([], t)
  | _ =>
    match t with
    | [] => None
    | c :: t' =>
      if n <? utf8_len c then None
      else match bsplit (n - utf8_len c) t' with
           | Some (a, b) => Some (c :: a, b)
           | None => None
           end
    end
  end.

(** [&s[a..b]]; panics when a > b, or a/b is out of range or off a char boundary. *)
Definition bslice (t : text) (a b : nat) : res text :=
  if b <? a then Panic
  else match bsplit a t with
       | Some (_, r) => match bsplit (b - a) r with
                        | Some (m, _) => Ok m
                        | None => Panic
                        end
       | None => Panic
       end.

(** Is byte offset [n] a char boundary of [t]? ([str::is_char_boundary]) *)
Definition is_boundary (t : text) (n : nat) : Prop :=
  exists a b, t = a ++ b /\ blen a = n.

Definition text_eqb (a b : text) : bool :=
  (length a =? length b) && forallb (fun p => N.eqb (fst p) (snd p)) (combine a b).

(** Writing ASCII literals. *)
Definition ch (a : ascii) : char := N_of_ascii a.
Fixpoint txt (s : string) : text :=
  match s with
  | EmptyString => []
  | String a s' => ch a :: txt s'
  end.

(** [rowan::TextRange]. *)
Record range := mkRange { r_start : nat; r_end : nat }.

(** crates/syntax/src/syntax_node.rs:26 [SyntaxError(String, TextRange)]. *)
Record syntax_error := mkErr { e_msg : string; e_range : range }.

(** [u32] capacity: lib/accept/src/source.rs:49 [u32::try_from(text.len()).unwrap()]. *)
Definition fits_u32 (n : nat) : bool := (N.of_nat n <? 4294967296)%N.

(** ** Basic facts *)

Lemma rbind_ok {A B} (r : res A) (f : A -> res B) b :
  rbind r f = Ok b -> exists a, r = Ok a /\ f a = Ok b.
Proof. destruct r; simpl; intros H; try discriminate; eauto. Qed.

Lemma utf8_len_pos c : 1 <= utf8_len c.
Proof. unfold utf8_len; repeat destruct (_ <? _)%N; lia. Qed.

Lemma utf8_len_le c : utf8_len c <= 4.
Proof. unfold utf8_len; repeat destruct (_ <? _)%N; lia. Qed.

Lemma blen_app a b : blen (a ++ b) = blen a + blen b.
Proof. induction a as [|c a IH]; simpl; [reflexivity|rewrite IH; lia]. Qed.

Lemma blen_ge_length t : length t <= blen t.
Proof. induction t as [|c t IH]; simpl; [lia|pose proof (utf8_len_pos c); lia]. Qed.

Lemma bsplit_app a b : bsplit (blen a) (a ++ b) = Some (a, b).
Proof.
  induction a as [|c a IH]; simpl; [destruct b; reflexivity|].
  pose proof (utf8_len_pos c).
  destruct (utf8_len c + blen a) eqn:E; [lia|]. rewrite <- E. clear n E.
  destruct (Nat.ltb_spec (utf8_len c + blen a) (utf8_len c)); [lia|].
  replace (utf8_len c + blen a - utf8_len c) with (blen a) by lia.
  rewrite IH. reflexivity.
Qed.

Lemma bsplit_0 t : bsplit 0 t = Some ([], t).
Proof. destruct t; reflexivity. Qed.

Lemma bsplit_some n t a b : bsplit n t = Some (a, b) -> t = a ++ b /\ blen a = n.
Proof.
  revert n a b; induction t as [|c t IH]; intros n a b.
  - destruct n; cbn [bsplit]; intros H; [|discriminate]. injection H as <- <-. auto.
  - destruct n; cbn [bsplit]; intros H; [injection H as <- <-; auto|].
    destruct (Nat.ltb_spec (S n) (utf8_len c)); [discriminate|].
    destruct (bsplit (S n - utf8_len c) t) as [[a' b']|] eqn:E; [|discriminate].
    injection H as <- <-. apply IH in E as [-> E]. cbn [blen app]. split; [reflexivity|lia].
Qed.

Lemma bslice_app a m b : bslice (a ++ m ++ b) (blen a) (blen a + blen m) = Ok m.
Proof.
  unfold bslice. destruct (Nat.ltb_spec (blen a + blen m) (blen a)); [lia|].
  rewrite bsplit_app. replace (blen a + blen m - blen a) with (blen m) by lia.
  now rewrite bsplit_app.
Qed.

Lemma bslice_ok t x y m : bslice t x y = Ok m ->
  exists a b, t = a ++ m ++ b /\ blen a = x /\ blen m = y - x /\ x <= y.
Proof.
  unfold bslice. destruct (Nat.ltb_spec y x); [discriminate|].
  destruct (bsplit x t) as [[a r]|] eqn:E1; [|discriminate].
  destruct (bsplit (y - x) r) as [[m' b]|] eqn:E2; [|discriminate].
  intros [= <-]. apply bsplit_some in E1 as [-> E1]. apply bsplit_some in E2 as [-> E2].
  exists a, b. auto.
Qed.

Lemma text_eqb_eq a b : text_eqb a b = true <-> a = b.
Proof.
  unfold text_eqb. rewrite andb_true_iff, Nat.eqb_eq. revert b.
  induction a as [|x a IH]; intros [|y b]; simpl; split; try easy.
  - intros [[= E] H]. apply andb_true_iff in H as [H1 H2]. apply N.eqb_eq in H1 as ->.
    f_equal. apply IH. auto.
  - intros [= -> ->]. rewrite N.eqb_refl. simpl. split; [reflexivity|].
    apply (proj2 (IH b)). reflexivity.
Qed.

Lemma text_eqb_refl a : text_eqb a a = true.
Proof. now apply text_eqb_eq. Qed.

Lemma is_boundary_iff t n : is_boundary t n <-> exists p, bsplit n t = Some p.
Proof.
  split.
  - intros (a & b & -> & <-). exists (a, b). apply bsplit_app.
  - intros [[a b] H]. apply bsplit_some in H as [-> H]. exists a, b. auto.
Qed.
