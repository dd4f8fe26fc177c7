import re
s=open('/repo/crates/parser/src/syntax_kind/generated.rs').read()
body=re.search(r'pub enum SyntaxKind \{(.*?)\n\}',s,re.S).group(1)
ks=re.findall(r'^\s+([A-Z_]\w*),',body,re.M)
print(len(ks))
def cn(k): return 'K'+k.strip('_') if True else k
kw=re.findall(r'"(\w+)" => (\w+),',s)
punct={'Bang':'!','Hash':'#','Modulo':'%','LParen':'(','RParen':')','Asterisk':'*','Plus':'+','Comma':',','Minus':'-','Dot':'.','DoubleDot':'..','TripleDot':'...','Slash':'/','Colon':':','DoubleColon':'::','Semicolon':';','Lt':'<','LtEq':'<=','Eq':'=','EqEq':'==','Gt':'>','GtEq':'>=','LBracket':'[','RBracket':']','Caret':'^','LBrace':'{','RBrace':'}','NotEq':'~='}
o=[]
o.append('''(** SyntaxKind.v — crates/parser/src/syntax_kind/generated.rs and syntax_kind.rs.
    The constructor for Rust's [SyntaxKind::Foo] is [KFoo]; [__LAST] is [KLAST].
    The list below is a transcription (by script) of the Rust enum, same order. *)
From Verif Require Import Base.
''')
o.append('(** crates/parser/src/syntax_kind/generated.rs:5-126 *)')
o.append('Inductive kind : Set :=')
for k in ks: o.append('| '+cn(k))
o[-1]+='.'
o.append('''
(** [k as u16] (repr(u16), discriminants in declaration order; generated.rs:6-7,
    syntax_kind.rs:15-19). *)
Definition kind_to_u16 (k : kind) : N :=
  match k with''')
for i,k in enumerate(ks): o.append('  | %s => %d'%(cn(k),i))
o.append('  end%N.')
o.append('''
(** The unsafe transmute's defined range: the kind with a given discriminant. *)
Definition kind_of_index (n : N) : option kind :=
  match n with''')
for i,k in enumerate(ks): o.append('  | %d => Some %s'%(i,cn(k)))
o.append('  | _ => None\n  end%N.')
o.append('''
(** crates/parser/src/syntax_kind.rs:8-13 [From<u16>]: asserts d <= __LAST, then transmutes. *)
Definition kind_from_u16 (d : N) : res kind :=
  if (d <=? kind_to_u16 KLAST)%N then
    match kind_of_index d with Some k => Ok k | None => Panic end
  else Panic.

(** Derived PartialEq. *)
Definition kind_eqb (a b : kind) : bool := N.eqb (kind_to_u16 a) (kind_to_u16 b).

(** Derived Debug name. *)
Definition kind_name (k : kind) : string :=
  match k with''')
for i,k in enumerate(ks): o.append('  | %s => "%s"'%(cn(k),k))
o.append('  end%string.')
o.append('''
(** All kinds, in order (used only to sweep the finite type in proofs). *)
Definition all_kinds : list kind :=
  [%s].
'''%('; '.join(cn(k) for k in ks)))
o.append('''(** generated.rs:129-131 [is_trivia]. *)
Definition is_trivia (k : kind) : bool :=
  match k with KComment | KWhitespace => true | _ => false end.
''')
o.append('''(** generated.rs:195-222 [from_keyword]. *)
Definition keyword_table : list (text * kind) :=
  [''' + ';\n   '.join('(txt "%s", K%s)'%(a,b) for a,b in kw)+'''].

Definition from_keyword (t : text) : option kind :=
  match find (fun p => text_eqb (fst p) t) keyword_table with
  | Some p => Some (snd p)
  | None => None
  end.
''')
o.append('''(** The spelling attached to each punctuation kind by the [T!] macro (generated.rs:228). *)
Definition punct_table : list (kind * text) :=
  [''' + ';\n   '.join('(K%s, txt "%s")'%(a,b) for a,b in punct.items())+'''].
''')
o.append('''Lemma kind_of_to k : kind_of_index (kind_to_u16 k) = Some k.
Proof. destruct k; reflexivity. Qed.

Lemma kind_to_u16_inj a b : kind_to_u16 a = kind_to_u16 b -> a = b.
Proof.
  intros H. pose proof (kind_of_to a) as Ha. rewrite H, kind_of_to in Ha. congruence.
Qed.

Lemma kind_eqb_eq a b : kind_eqb a b = true <-> a = b.
Proof.
  unfold kind_eqb. rewrite N.eqb_eq. split; [apply kind_to_u16_inj|now intros ->].
Qed.

Lemma kind_eqb_refl a : kind_eqb a a = true.
Proof. apply kind_eqb_eq; reflexivity. Qed.

Lemma kind_eqb_neq a b : kind_eqb a b = false <-> a <> b.
Proof.
  rewrite <- kind_eqb_eq. destruct (kind_eqb a b); split; congruence.
Qed.

Lemma kind_eqb_spec a b : reflect (a = b) (kind_eqb a b).
Proof.
  destruct (kind_eqb a b) eqn:E; constructor; [now apply kind_eqb_eq|now apply kind_eqb_neq].
Qed.

Definition kind_eq_dec (a b : kind) : {a = b} + {a <> b}.
Proof. destruct (kind_eqb a b) eqn:E; [left; now apply kind_eqb_eq|right; now apply kind_eqb_neq]. Defined.

Lemma all_kinds_complete k : In k all_kinds.
Proof. apply (nth_error_In _ (N.to_nat (kind_to_u16 k))). destruct k; reflexivity. Qed.

(** Lifting a boolean sweep over all kinds. *)
Lemma forall_kinds (P : kind -> bool) : forallb P all_kinds = true -> forall k, P k = true.
Proof. intros H k. rewrite forallb_forall in H. apply H, all_kinds_complete. Qed.

Lemma kind_to_u16_lt k : (kind_to_u16 k < 128)%N.
Proof. destruct k; reflexivity. Qed.
''')
open('/verif/rocq/theories/SyntaxKind.v','w').write('\n'.join(o))
