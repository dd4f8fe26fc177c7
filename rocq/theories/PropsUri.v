(** PropsUri.v — C79: under which URIs diagnostics are published. *)
From Coq Require Import ZArith.
From Verif Require Import Base LineIndex Vfs Ide Server ServerInv PropsServer PropsDiag PropsFiles PropsClosed Uri.

(** ** Specification *)

(** How a path component is written in a URI: bytes that need it as % and two upper case hex digits,
    all others as they are. *)
Inductive written (need : ascii -> Prop) : bytes -> bytes -> Prop :=
| w_nil : written need [] []
| w_plain b c s : ~ need b -> written need c s -> written need (b :: c) (b :: s)
| w_escaped b h l c s : need b ->
    nth_error (list_ascii_of_string "0123456789ABCDEF") (N.to_nat (N.div (N_of_ascii b) 16)) = Some h ->
    nth_error (list_ascii_of_string "0123456789ABCDEF") (N.to_nat (N.modulo (N_of_ascii b) 16)) = Some l ->
    written need c s -> written need (b :: c) ("%"%char :: h :: l :: s).

(** The bytes that are escaped: outside ASCII, or of the set. *)
Definition need (set : ascii -> bool) (b : ascii) : Prop := (127 < N_of_ascii b)%N \/ set b = true.

(** The URIs of the form file:///component/.../component, each component as above, or file:///. *)
Definition canonical (set : ascii -> bool) (u : url) : Prop :=
  u_scheme u = "file"%string /\ u_base u = true /\ u_host u = None /\ u_query u = None /\ u_fragment u = None /\
  (u_segs u = [[]] \/
   u_segs u <> [] /\
   Forall (fun s => exists c, written (need set) c s /\ c <> [] /\ c <> ["."%char] /\ ~ In "/"%char c) (u_segs u)).

(** The bytes a URI segment stands for (RFC 3986): % and two hex digits, of either case, stand for the
    byte with that number; everything else, also any other %, stands for itself. *)
Definition digit (v : nat) (c : ascii) : Prop :=
  nth_error (list_ascii_of_string "0123456789abcdef") v = Some c \/ nth_error (list_ascii_of_string "0123456789ABCDEF") v = Some c.
Inductive stands_for : bytes -> bytes -> Prop :=
| s_nil : stands_for [] []
| s_escape a b h l s d : digit a h -> digit b l -> stands_for s d -> stands_for ("%"%char :: h :: l :: s) (ascii_of_nat (16 * a + b) :: d)
| s_itself c s d : ~ (c = "%"%char /\ exists a b h l s', s = h :: l :: s' /\ digit a h /\ digit b l) ->
    stands_for s d -> stands_for (c :: s) (c :: d).
(** The path a URI names: it has segments, and no host or localhost; each segment follows a separator.
    The scheme, the query and the fragment do not matter. *)
Definition names (u : url) (p : bytes) : Prop :=
  u_base u = true /\ (u_host u = None \/ u_host u = Some "localhost"%string) /\
  exists ds, Forall2 stands_for (u_segs u) ds /\ p = concat (map (cons "/"%char) ds).

(** ** Percent encoding *)

Lemma must_encode_iff set b : must_encode set b = true <-> need set b.
Proof. unfold must_encode, need. rewrite orb_true_iff, N.ltb_lt. tauto. Qed.

Lemma decode_escaped b rest :
  percent_decode ("%"%char :: hex_digit (N.div (N_of_ascii b) 16) :: hex_digit (N.modulo (N_of_ascii b) 16) :: rest)
  = b :: percent_decode rest.
Proof. destruct b as [[] [] [] [] [] [] [] []]; reflexivity. Qed.

Lemma decode_plain b rest : b <> "%"%char -> percent_decode (b :: rest) = b :: percent_decode rest.
Proof. intros N. cbn [percent_decode]. destruct (Ascii.eqb_spec b "%"); [contradiction|reflexivity]. Qed.

Lemma decode_encode set s : set "%"%char = true -> percent_decode (percent_encode set s) = s.
Proof.
  intros P. induction s as [|b s IH]; [reflexivity|]. cbn [percent_encode flat_map].
  unfold encode_byte at 1. destruct (must_encode set b) eqn:E.
  - cbn [app]. rewrite decode_escaped. f_equal. exact IH.
  - cbn [app]. rewrite decode_plain; [f_equal; exact IH|]. intros ->. unfold must_encode in E. rewrite P, orb_true_r in E. discriminate.
Qed.

Lemma hex_pair b :
  nth_error (list_ascii_of_string "0123456789ABCDEF") (N.to_nat (N.div (N_of_ascii b) 16)) = Some (hex_digit (N.div (N_of_ascii b) 16)) /\
  nth_error (list_ascii_of_string "0123456789ABCDEF") (N.to_nat (N.modulo (N_of_ascii b) 16)) = Some (hex_digit (N.modulo (N_of_ascii b) 16)).
Proof. split; destruct b as [[] [] [] [] [] [] [] []]; reflexivity. Qed.

Lemma written_encode set c : written (need set) c (percent_encode set c).
Proof.
  induction c as [|b c IH]; [constructor|]. cbn [percent_encode flat_map]. unfold encode_byte at 1.
  destruct (must_encode set b) eqn:E; cbn [app].
  - destruct (hex_pair b) as (H1 & H2). apply w_escaped; auto. now apply must_encode_iff.
  - apply w_plain; [|exact IH]. intros N. apply must_encode_iff in N. congruence.
Qed.

Lemma written_only set c s : written (need set) c s -> s = percent_encode set c.
Proof.
  induction 1 as [|b c s N H IH|b h l c s N H1 H2 H IH]; [reflexivity| |]; cbn [percent_encode flat_map]; unfold encode_byte at 1.
  - destruct (must_encode set b) eqn:E; [apply must_encode_iff in E; contradiction|]. cbn [app]. f_equal. exact IH.
  - apply must_encode_iff in N. rewrite N. cbn [app].
    destruct (hex_pair b) as (E1 & E2). rewrite E1 in H1. rewrite E2 in H2. injection H1 as <-. injection H2 as <-. now rewrite IH.
Qed.

(** ** Components *)

Lemma split_last cur s : ~ In "/"%char s -> split_slash cur s = [cur ++ s].
Proof.
  revert cur; induction s as [|c s IH]; intros cur N; cbn [split_slash]; [now rewrite app_nil_r|].
  destruct (Ascii.eqb_spec c "/") as [->|]; [elim N; now left|]. rewrite IH by (intros X; apply N; now right).
  now rewrite <- app_assoc.
Qed.

Lemma split_app cur s p : ~ In "/"%char s -> split_slash cur (s ++ "/"%char :: p) = (cur ++ s) :: split_slash [] p.
Proof.
  revert cur; induction s as [|c s IH]; intros cur N; cbn [split_slash app]; [now rewrite app_nil_r|].
  destruct (Ascii.eqb_spec c "/") as [->|]; [elim N; now left|]. rewrite IH by (intros X; apply N; now right).
  now rewrite <- app_assoc.
Qed.

Lemma split_parts cur cs : Forall (fun c => ~ In "/"%char c) cs -> ~ In "/"%char cur ->
  split_slash [] (cur ++ flat_map (fun s => "/"%char :: s) cs) = cur :: cs.
Proof.
  intros H. revert cur; induction H as [|c cs N H IH]; intros cur Nc; cbn [flat_map].
  - rewrite app_nil_r. now rewrite split_last.
  - rewrite <- app_comm_cons, split_app by exact Nc. now rewrite IH.
Qed.

Lemma split_noslash cur p : ~ In "/"%char cur -> Forall (fun c => ~ In "/"%char c) (split_slash cur p).
Proof.
  revert cur; induction p as [|c p IH]; intros cur N; cbn [split_slash]; [now constructor|].
  destruct (Ascii.eqb_spec c "/") as [->|D]; [constructor; [exact N|apply IH; easy]|].
  apply IH. intros X. apply in_app_iff in X as [X|[X|[]]]; [contradiction|congruence].
Qed.

Lemma is_component_iff c : is_component c = true <-> c <> [] /\ c <> ["."%char].
Proof.
  destruct c as [|a [|b c]].
  - split; [discriminate|intros [X _]; congruence].
  - destruct (Ascii.eqb_spec a ".") as [->|N]; [split; [discriminate|intros [_ X]; congruence]|].
    split; [split; congruence|]. intros _. cbn. destruct a as [[] [] [] [] [] [] [] []]; try reflexivity. congruence.
  - split; [split; congruence|]. intros _. cbn. destruct a as [[] [] [] [] [] [] [] []]; reflexivity.
Qed.

Definition proper (cs : list bytes) : Prop := Forall (fun c => c <> [] /\ c <> ["."%char] /\ ~ In "/"%char c) cs.

Lemma components_proper p : proper (components p).
Proof.
  unfold proper, components. apply Forall_forall. intros c H. apply filter_In in H as [H K].
  apply is_component_iff in K as [K1 K2]. repeat split; auto.
  pose proof (split_noslash [] p (fun X => X)) as F. rewrite Forall_forall in F. now apply F.
Qed.

Lemma filter_proper cs : proper cs -> filter is_component cs = cs.
Proof.
  induction 1 as [|c cs (H1 & H2 & _) H IH]; [reflexivity|]. cbn [filter].
  destruct (is_component c) eqn:E; [now f_equal|].
  assert (is_component c = true) by (now apply is_component_iff). congruence.
Qed.

Lemma components_parts cs : Forall (fun c => ~ In "/"%char c) cs ->
  components (flat_map (fun s => "/"%char :: s) cs) = filter is_component cs.
Proof.
  intros H. unfold components. pose proof (split_parts [] cs H (fun X => X)) as E. cbn [app] in E. rewrite E. reflexivity.
Qed.

Lemma flat_map_map {A B C} (f : A -> B) (g : B -> list C) l : flat_map g (map f l) = flat_map (fun x => g (f x)) l.
Proof. induction l as [|a l IH]; cbn; [reflexivity|now rewrite IH]. Qed.

Lemma proper_noslash cs : proper cs -> Forall (fun c => ~ In "/"%char c) cs.
Proof. apply Forall_impl. tauto. Qed.

(** ** The conversions *)

(** A path survives the way to a URI and back; different paths have different URIs. *)
Definition c79_path_statement : Prop := forall set, set "%"%char = true ->
  (forall p, is_absolute p = true -> exists u q,
     url_from_abs_path set p = Ok u /\ canonical set u /\ abs_path_url u = Ok (Some q) /\ components q = components p) /\
  (forall p q u, url_from_abs_path set p = Ok u -> url_from_abs_path set q = Ok u -> components p = components q) /\
  (forall u, u_segs u <> [] -> abs_path_url u <> Panic).

Lemma url_segs set p u : url_from_abs_path set p = Ok u ->
  u = mkUrl "file" true None (match components p with [] => [[]] | cs => map (percent_encode set) cs end) None None.
Proof.
  unfold url_from_abs_path, from_file_path. destruct (is_absolute p); cbn [rassert rbind runwrap]; [|discriminate]. now intros [= <-].
Qed.

Lemma url_back set p u : set "%"%char = true -> url_from_abs_path set p = Ok u ->
  exists q, to_file_path u = Some q /\ is_absolute q = true /\ components q = components p.
Proof.
  intros P H. apply url_segs in H as ->. unfold to_file_path. cbn [u_base u_host u_segs].
  destruct (components p) as [|c cs] eqn:E.
  - eexists. split; [reflexivity|]. split; reflexivity.
  - eexists. split; [reflexivity|]. split; [reflexivity|].
    rewrite flat_map_map. rewrite (flat_map_ext _ (fun s => "/"%char :: s)) by (intros a; now rewrite decode_encode).
    pose proof (components_proper p) as Pr. rewrite E in Pr.
    rewrite components_parts by now apply proper_noslash. now apply filter_proper.
Qed.

Theorem C79_path_survives : c79_path_statement.
Proof.
  intros set P. split; [|split].
  - intros p A. assert (H : url_from_abs_path set p = Ok (mkUrl "file" true None (match components p with [] => [[]] | cs => map (percent_encode set) cs end) None None)).
    { unfold url_from_abs_path, from_file_path. now rewrite A. }
    destruct (url_back set p _ P H) as (q & T & Aq & C). eexists _, q. split; [exact H|]. split; [|split; [|exact C]].
    + repeat split. cbn [u_segs]. pose proof (components_proper p) as Pr. destruct (components p) as [|c cs]; [now left|].
      right. split; [discriminate|]. apply Forall_forall. intros s X. apply in_map_iff in X as (x & <- & X).
      exists x. split; [apply written_encode|]. unfold proper in Pr. rewrite Forall_forall in Pr. now apply Pr.
    + unfold abs_path_url. now rewrite T, Aq.
  - intros p q u H1 H2. destruct (url_back set p u P H1) as (x & T1 & _ & <-). destruct (url_back set q u P H2) as (y & T2 & _ & <-). congruence.
  - intros u N. unfold abs_path_url, to_file_path. destruct (u_base u); [|discriminate].
    destruct (u_segs u) as [|s ss]; [congruence|]. destruct (u_host u) as [h|]; [destruct (String.eqb h "localhost")|]; cbn; discriminate.
Qed.
Print Assumptions C79_path_survives.

(** The URI made for the path of a URI is that URI exactly when it is canonical. *)
Theorem C79_canonical_exactly : forall set u p, set "%"%char = true -> abs_path_url u = Ok (Some p) ->
  (url_from_abs_path set p = Ok u <-> canonical set u).
Proof.
  intros set u p P H. unfold abs_path_url in H. destruct (to_file_path u) as [p'|] eqn:T; [|discriminate].
  destruct (is_absolute p') eqn:A; [|discriminate]. injection H as ->.
  split.
  - intros H. destruct (proj1 (C79_path_survives set P) p A) as (u' & q & H' & K & _). congruence.
  - intros (K1 & K2 & K3 & K4 & K5 & K6). unfold url_from_abs_path, from_file_path. rewrite A. cbn [rassert rbind runwrap].
    unfold to_file_path in T. rewrite K2, K3 in T. injection T as <-.
    destruct u as [sc ba ho segs qu fr]. cbn in K1, K2, K3, K4, K5, K6. cbn [u_segs]. subst. f_equal. f_equal.
    destruct K6 as [->|[N F]]; [reflexivity|].
    assert (X : exists cs, proper cs /\ segs = map (percent_encode set) cs).
    { clear -F. induction F as [|s ss (c & W & N1 & N2 & N3) F (cs & Pr & ->)]; [exists []; split; [constructor|reflexivity]|].
      exists (c :: cs). split; [constructor; auto|]. cbn [map]. f_equal. now apply written_only. }
    destruct X as (cs & Pr & ->). rewrite flat_map_map.
    rewrite (flat_map_ext _ (fun s => "/"%char :: s)) by (intros a; now rewrite decode_encode).
    rewrite components_parts by now apply proper_noslash. rewrite filter_proper by exact Pr.
    destruct cs; [cbn in N; congruence|reflexivity].
Qed.
Print Assumptions C79_canonical_exactly.

(** ** On the wire *)

Lemma list_of_append a b : list_ascii_of_string (a ++ b) = list_ascii_of_string a ++ list_ascii_of_string b.
Proof. induction a as [|c a IH]; cbn; [reflexivity|now rewrite IH]. Qed.

Lemma list_of_concat c cs :
  list_ascii_of_string (String.concat "/" (map string_of_list_ascii (c :: cs))) = c ++ flat_map (fun s => "/"%char :: s) cs.
Proof.
  revert c; induction cs as [|d cs IH]; intros c.
  - cbn. now rewrite list_ascii_of_string_of_list_ascii, app_nil_r.
  - change (String.concat "/" (map string_of_list_ascii (c :: d :: cs)))
      with (string_of_list_ascii c ++ "/" ++ String.concat "/" (map string_of_list_ascii (d :: cs)))%string.
    rewrite !list_of_append, IH, list_ascii_of_string_of_list_ascii. reflexivity.
Qed.

Lemma list_of_path cs : list_ascii_of_string (path_of cs) = match cs with [] => ["/"%char] | _ => flat_map (fun s => "/"%char :: s) cs end.
Proof.
  unfold path_of. destruct cs as [|c cs]; [reflexivity|]. rewrite list_of_append, list_of_concat. reflexivity.
Qed.

Lemma components_path_of cs : proper cs -> components (list_ascii_of_string (path_of cs)) = cs.
Proof.
  intros H. rewrite list_of_path. destruct cs as [|c cs]; [reflexivity|].
  rewrite components_parts by now apply proper_noslash. now apply filter_proper.
Qed.

Lemma absolute_path_of cs : is_absolute (list_ascii_of_string (path_of cs)) = true.
Proof. reflexivity. Qed.

Lemma path_of_inj cs ds : proper cs -> proper ds -> path_of cs = path_of ds -> cs = ds.
Proof. intros H1 H2 E. rewrite <- (components_path_of cs H1), <- (components_path_of ds H2). now rewrite E. Qed.

Lemma percent_in_set : PATH_SEGMENT "%"%char = true.
Proof. reflexivity. Qed.

Lemma url_of_path_of p : is_absolute p = true -> url_from_abs_path PATH_SEGMENT p = Ok (url_of_path (path_of (components p))).
Proof.
  intros A. unfold url_of_path, url_from_abs_path, from_file_path. rewrite A, absolute_path_of. cbn [rassert rbind runwrap].
  rewrite (components_path_of _ (components_proper p)). reflexivity.
Qed.

Lemma to_file_absolute u p : u_segs u <> [] -> to_file_path u = Some p -> is_absolute p = true.
Proof.
  intros N H. unfold to_file_path in H. destruct (u_base u); [|discriminate].
  destruct (u_segs u) as [|s ss]; [congruence|]. destruct (u_host u) as [h|]; [destruct (String.eqb h "localhost"); [|discriminate]|]; injection H as <-; reflexivity.
Qed.

(** What a client can send: URIs with a path have at least one segment, and document notifications
    name their document by URI. *)
Definition well_formed (w : wevent) : Prop :=
  match w with
  | WOpen u _ _ | WChange u _ _ | WClose u => u_segs u <> []
  | WElse (ELsp (MNot (NOpen _ _ _ | NChange _ _ _ | NClose _))) => False
  | WElse _ => True
  end.

Lemma wrun_run ws : forall g g' out, wrun g ws = Ok (g', out) -> run g (map event_of ws) = Ok g'.
Proof.
  induction ws as [|w ws IH]; intros g g' out H; [now injection H as <- _|].
  assert (D : w = WElse (ELsp (MNot NExit)) \/ event_of w <> ELsp (MNot NExit)).
  { destruct w as [u z t|u z cs|u|e]; try (right; discriminate). destruct e as [[q|[]|r]| |v vs]; try (right; discriminate). now left. }
  destruct D as [->|D]; [now injection H as <- _|].
  assert (H' : (let? g1 := handle_event g (event_of w) in let? (g2, out) := wrun g1 ws in
                Ok (g2, wire_new w (skipn (length (g_sent g)) (g_sent g1)) ++ out)) = Ok (g', out)).
  { destruct w as [u z t|u z cs|u|e]; try exact H. destruct e as [[q|[]|r]| |v vs]; try exact H. now elim D. }
  apply rbind_inv in H' as (g1 & H1 & H'). apply rbind_inv in H' as ([g2 o2] & H2 & H'). injection H' as <- _.
  cbn [map]. rewrite run_cons by exact D. rewrite H1. cbn [rbind]. eapply IH; eauto.
Qed.

Lemma publish_app l : forall g g', publish g l = Ok g' -> exists new, g_sent g' = g_sent g ++ new.
Proof.
  induction l as [|f l IH]; intros g g' H; [injection H as <-; exists []; now rewrite app_nil_r|].
  cbn [publish] in H. apply rbind_inv in H as (p & _ & H). apply IH in H as (new & ->). cbn. eexists. now rewrite <- app_assoc.
Qed.

Lemma after_app g g' : after_event g = Ok g' -> exists new, g_sent g' = g_sent g ++ new.
Proof.
  intros H. unfold after_event in H. apply rbind_inv in H as ([g1 ch] & H1 & H). apply rbind_inv in H as (g2 & H2 & H).
  assert (S1 : g_sent g1 = g_sent g).
  { clear -H1. unfold process_changes in H1. destruct (v_take_changes (g_vfs g)) as [v l]. destruct l as [|x l]; [injection H1 as <- _; reflexivity|].
    apply rbind_inv in H1 as (cg & _ & H1). injection H1 as <- _. reflexivity. }
  assert (S2 : g_sent g2 = g_sent g1).
  { destruct ch; [|now injection H2 as <-]. apply maybe_update_core in H2. tauto. }
  destruct (coll_take_changes (g_diagnostics g2)) as [cc [l|]].
  - apply publish_app in H as (new & ->). exists new. cbn. now rewrite S2, S1.
  - injection H as <-. exists []. cbn. now rewrite app_nil_r, S2, S1.
Qed.

Lemma handle_app g e g' : handle_event g e = Ok g' -> exists new, g_sent g' = g_sent g ++ new.
Proof.
  intros H. unfold handle_event in H. apply rbind_inv in H as (g1 & H1 & H).
  apply dispatch_sent in H1 as (n1 & S1 & _). apply after_app in H as (n2 & S2). exists (n1 ++ n2). now rewrite S2, S1, app_assoc.
Qed.

(** A close starts with the notification for the document closed. *)
Lemma handle_close g u g' : handle_event g (ELsp (MNot (NClose u))) = Ok g' ->
  exists ver rest, g_sent g' = g_sent g ++ OutDiagnostics u [] ver :: rest.
Proof.
  intros H. unfold handle_event in H. apply rbind_inv in H as (g1 & H1 & H).
  apply after_app in H as (rest & H). cbn in H1. injection H1 as <-.
  unfold did_close in H. destruct (abs_path u) as [p|]; cbn in H; rewrite <- app_assoc in H; eexists _, rest; exact H.
Qed.

Lemma skipn_app_length {A} (l r : list A) : skipn (length l) (l ++ r) = r.
Proof. induction l; cbn; auto. Qed.

(** The steps of [wrun], with what each adds. *)
Lemma wrun_cons w ws g g' out : wrun g (w :: ws) = Ok (g', out) ->
  (w = WElse (ELsp (MNot NExit)) /\ g' = g /\ out = []) \/
  exists g1 new out2, handle_event g (event_of w) = Ok g1 /\ g_sent g1 = g_sent g ++ new /\ wrun g1 ws = Ok (g', out2) /\
    out = wire_new w new ++ out2.
Proof.
  intros H. assert (D : w = WElse (ELsp (MNot NExit)) \/ w <> WElse (ELsp (MNot NExit))).
  { destruct w as [u z t|u z cs|u|e]; try (right; discriminate). destruct e as [[q|[]|r]| |v vs]; try (right; discriminate). now left. }
  destruct D as [->|D]; [left; now injection H as <- <-|right].
  assert (H' : (let? g1 := handle_event g (event_of w) in let? (g2, out) := wrun g1 ws in
                Ok (g2, wire_new w (skipn (length (g_sent g)) (g_sent g1)) ++ out)) = Ok (g', out)).
  { destruct w as [u z t|u z cs|u|e]; try exact H. destruct e as [[q|[]|r]| |v vs]; try exact H. now elim D. }
  apply rbind_inv in H' as (g1 & H1 & H'). apply rbind_inv in H' as ([g2 o2] & H2 & H'). injection H' as <- <-.
  destruct (handle_app _ _ _ H1) as (new & Sn). exists g1, new, o2. rewrite Sn, skipn_app_length. auto.
Qed.

Lemma wrun_sent ws : forall g g' out, wrun g ws = Ok (g', out) -> exists new, g_sent g' = g_sent g ++ new.
Proof.
  induction ws as [|w ws IH]; intros g g' out H; [injection H as <- _; exists []; now rewrite app_nil_r|].
  destruct (wrun_cons _ _ _ _ _ H) as [(_ & -> & _)|(g1 & new & o2 & _ & Sn & H2 & _)]; [exists []; now rewrite app_nil_r|].
  destruct (IH _ _ _ H2) as (n2 & S2). exists (new ++ n2). now rewrite S2, Sn, app_assoc.
Qed.

(** Every notification is one of the server model, or the one of a close. *)
Lemma wrun_diag ws : forall g g' out d, wrun g ws = Ok (g', out) -> In d out ->
  (exists p, In (OutDiagnostics (UFile p) (w_diags d) (w_version d)) (g_sent g') /\ w_url d = url_of_path p) \/
  (exists u, In (WClose u) ws /\ w_url d = u /\ w_diags d = []).
Proof.
  induction ws as [|w ws IH]; intros g g' out d H X; [injection H as _ <-; contradiction|].
  destruct (wrun_cons _ _ _ _ _ H) as [(_ & _ & ->)|(g1 & new & o2 & H1 & Sn & H2 & ->)]; [contradiction|].
  apply in_app_iff in X as [X|X].
  - destruct (wrun_sent _ _ _ _ H2) as (n2 & S2).
    assert (G : forall l, incl l new -> In d (flat_map wire_out l) -> exists p, In (OutDiagnostics (UFile p) (w_diags d) (w_version d)) (g_sent g') /\ w_url d = url_of_path p).
    { intros l L Y. apply in_flat_map in Y as (o & Y & Z). destruct o as [a b|[p|s] ds ver|i]; try contradiction. destruct Z as [<-|[]].
      exists p. split; [|reflexivity]. rewrite S2, Sn. apply in_app_iff. left. apply in_app_iff. right. apply L. exact Y. }
    destruct w as [u z t|u z cs|u|e]; cbn [wire_new] in X; try (left; apply (G new); [apply incl_refl|exact X]).
    destruct (handle_close _ _ _ H1) as (ver & rest & Sc). rewrite Sn in Sc. apply app_inv_head in Sc. subst new.
    destruct X as [<-|X]; [right; exists u; split; [now left|split; reflexivity]|].
    left. apply (G rest); [|exact X]. intros y Y. now right.
  - destruct (IH _ _ _ _ H2 X) as [Y|(u & Y & Z)]; [now left|right; exists u; split; [now right|exact Z]].
Qed.

Lemma uri_of_file u p : uri_of u = UFile p -> exists q, to_file_path u = Some q /\ p = path_of (components q).
Proof. unfold uri_of. destruct (to_file_path u) as [q|]; [|discriminate]. intros [= <-]. now exists q. Qed.

Lemma event_open ws z t p : Forall well_formed ws -> In (ELsp (MNot (NOpen (UFile p) z t))) (map event_of ws) ->
  exists u, In (WOpen u z t) ws /\ uri_of u = UFile p.
Proof.
  intros F X. apply in_map_iff in X as (w & E & X). rewrite Forall_forall in F. apply F in X as Fw.
  destruct w as [u z' t'|u z' cs|u|e]; cbn in E; try discriminate.
  - injection E as E -> ->. now exists u.
  - subst e. contradiction.
Qed.

Lemma event_close ws p : Forall well_formed ws -> In (ELsp (MNot (NClose (UFile p)))) (map event_of ws) ->
  exists u, In (WClose u) ws /\ uri_of u = UFile p.
Proof.
  intros F X. apply in_map_iff in X as (w & E & X). rewrite Forall_forall in F. apply F in X as Fw.
  destruct w as [u z' t'|u z' cs|u|e]; cbn in E; try discriminate.
  - injection E as E. now exists u.
  - subst e. contradiction.
Qed.

(** In every history, diagnostics go to the canonical URI of the path of some opened URI. *)
Theorem C79_published_under : forall c ws g out d, Forall well_formed ws -> wrun (g_new c) ws = Ok (g, out) ->
  In d out -> w_diags d <> [] ->
  exists u z t p, In (WOpen u z t) ws /\ abs_path_url u = Ok (Some p) /\ url_from_abs_path PATH_SEGMENT p = Ok (w_url d).
Proof.
  intros c ws g out d F H X N. destruct (wrun_diag _ _ _ _ _ H X) as [(p & Y & E)|(u & _ & _ & Z)]; [|contradiction].
  destruct (C64_only_opened _ _ _ _ _ _ (wrun_run _ _ _ _ H) Y) as [(z & t & O1)|[_ Z]]; [|contradiction].
  destruct (event_open _ _ _ _ F O1) as (u & U & Eu). destruct (uri_of_file _ _ Eu) as (q & T & ->).
  rewrite Forall_forall in F. apply F in U as Wf. cbn in Wf.
  pose proof (to_file_absolute u q Wf T) as A. exists u, z, t, q. split; [exact U|]. split.
  - unfold abs_path_url. now rewrite T, A.
  - rewrite E. now apply url_of_path_of.
Qed.
Print Assumptions C79_published_under.

Definition url_dec (a b : url) : {a = b} + {a <> b}.
Proof. repeat decide equality. Defined.

(** The notifications under one URI, and those of the server model for one path. *)
Definition at_url (u : url) (out : list wdiag) : list (list lsp_diagnostic * option Z) :=
  flat_map (fun d => if url_dec (w_url d) u then [(w_diags d, w_version d)] else []) out.
Definition at_path (p : path) (sent : list output) : list (list lsp_diagnostic * option Z) :=
  flat_map (fun o => match o with OutDiagnostics (UFile q) ds ver => if string_dec q p then [(ds, ver)] else [] | _ => [] end) sent.

(** The client closes documents under canonical URIs, if they are files at all. *)
Definition closes_canonically (w : wevent) : Prop :=
  match w with WClose u => canonical PATH_SEGMENT u \/ abs_path_url u = Ok None | _ => True end.

Definition normal (p : path) : Prop := exists cs, proper cs /\ p = path_of cs.

Lemma canonical_url u p : canonical PATH_SEGMENT u -> abs_path_url u = Ok (Some p) -> u = url_of_path (path_of (components p)).
Proof.
  intros K H. apply (C79_canonical_exactly _ _ _ percent_in_set H) in K as K'.
  assert (A : is_absolute p = true).
  { unfold abs_path_url in H. destruct (to_file_path u) as [x|]; [|discriminate]. destruct (is_absolute x) eqn:E; [|discriminate]. congruence. }
  rewrite (url_of_path_of p A) in K'. congruence.
Qed.

Lemma url_of_normal_inj p q : normal p -> normal q -> url_of_path p = url_of_path q -> p = q.
Proof.
  intros (cs & Pc & ->) (ds & Pd & ->) E. f_equal.
  pose proof (url_of_path_of (list_ascii_of_string (path_of cs)) (absolute_path_of cs)) as H1.
  pose proof (url_of_path_of (list_ascii_of_string (path_of ds)) (absolute_path_of ds)) as H2.
  rewrite (components_path_of cs Pc) in H1. rewrite (components_path_of ds Pd) in H2. rewrite E in H1.
  pose proof (proj1 (proj2 (C79_path_survives _ percent_in_set)) _ _ _ H1 H2) as X.
  rewrite (components_path_of cs Pc), (components_path_of ds Pd) in X. exact X.
Qed.

Lemma at_wire P l : normal P -> (forall q ds ver, In (OutDiagnostics (UFile q) ds ver) l -> normal q) ->
  at_url (url_of_path P) (flat_map wire_out l) = at_path P l.
Proof.
  intros NP. induction l as [|o l IH]; intros H; [reflexivity|].
  assert (IH' : at_url (url_of_path P) (flat_map wire_out l) = at_path P l) by (apply IH; intros q ds ver X; eapply H; right; exact X).
  unfold at_url, at_path in *. cbn [flat_map]. rewrite flat_map_app, IH'. f_equal.
  destruct o as [a b|[q|s] ds ver|i]; try reflexivity. cbn [wire_out flat_map w_url w_diags w_version]. rewrite app_nil_r.
  destruct (url_dec (url_of_path q) (url_of_path P)) as [E|E], (string_dec q P) as [E'|E']; try reflexivity.
  - elim E'. apply url_of_normal_inj; auto. eapply H. now left.
  - subst. now elim E.
Qed.

Lemma at_url_app u a b : at_url u (a ++ b) = at_url u a ++ at_url u b.
Proof. apply flat_map_app. Qed.
Lemma at_path_app u a b : at_path u (a ++ b) = at_path u a ++ at_path u b.
Proof. apply flat_map_app. Qed.

Lemma wrun_at u p ws : canonical PATH_SEGMENT u -> abs_path_url u = Ok (Some p) -> forall g g' out new,
  Forall well_formed ws -> Forall closes_canonically ws -> wrun g ws = Ok (g', out) -> g_sent g' = g_sent g ++ new ->
  (forall q ds ver, In (OutDiagnostics (UFile q) ds ver) new -> normal q) ->
  at_url u out = at_path (path_of (components p)) new.
Proof.
  intros K U. assert (NP : normal (path_of (components p))) by (exists (components p); split; [apply components_proper|reflexivity]).
  pose proof (canonical_url u p K U) as Eu.
  induction ws as [|w ws IH]; intros g g' out new F C H Sn N.
  - injection H as <- <-. rewrite <- (app_nil_r (g_sent g)) in Sn at 1. apply app_inv_head in Sn. rewrite <- Sn. reflexivity.
  - pose proof (Forall_inv F) as Fw. pose proof (Forall_inv_tail F) as F'. pose proof (Forall_inv C) as Cw. pose proof (Forall_inv_tail C) as C'.
    destruct (wrun_cons _ _ _ _ _ H) as [(_ & -> & ->)|(g1 & n1 & o2 & H1 & S1 & H2 & ->)].
    + rewrite <- (app_nil_r (g_sent g)) in Sn at 1. apply app_inv_head in Sn. rewrite <- Sn. reflexivity.
    + destruct (wrun_sent _ _ _ _ H2) as (n2 & S2).
      assert (En : new = n1 ++ n2). { rewrite S2, S1, <- app_assoc in Sn. now apply app_inv_head in Sn. }
      subst new. rewrite at_url_app, at_path_app.
      rewrite (IH g1 g' o2 n2 F' C' H2 S2) by (intros q ds ver X; eapply N; apply in_app_iff; right; exact X). f_equal.
      assert (N1 : forall q ds ver, In (OutDiagnostics (UFile q) ds ver) n1 -> normal q) by (intros q ds ver X; eapply N; apply in_app_iff; left; exact X).
      destruct w as [u' z t|u' z cs|u'|e]; cbn [wire_new]; try (rewrite Eu; now apply at_wire).
      destruct (handle_close _ _ _ H1) as (ver & rest & Sc). rewrite S1 in Sc. apply app_inv_head in Sc. subst n1.
      change (mkWD u' [] ver :: flat_map wire_out rest) with ([mkWD u' [] ver] ++ flat_map wire_out rest).
      change (OutDiagnostics (uri_of u') [] ver :: rest) with ([OutDiagnostics (uri_of u') [] ver] ++ rest).
      rewrite at_url_app, at_path_app. f_equal.
      2:{ rewrite Eu. apply at_wire; [exact NP|]. intros q ds v X. eapply N1. right. exact X. }
      cbn in Cw. unfold at_url, at_path. cbn [flat_map w_url w_diags w_version]. rewrite !app_nil_r.
      destruct (to_file_path u') as [p'|] eqn:T'.
      * assert (A' : abs_path_url u' = Ok (Some p')) by (unfold abs_path_url; now rewrite T', (to_file_absolute u' p' Fw T')).
        destruct Cw as [Cw|Cw]; [|congruence].
        pose proof (canonical_url u' p' Cw A') as Eu'. unfold uri_of. rewrite T'.
        destruct (url_dec u' u) as [E|E], (string_dec (path_of (components p')) (path_of (components p))) as [E'|E']; try reflexivity.
        -- elim E'. rewrite E in A'. rewrite U in A'. now injection A' as ->.
        -- elim E. rewrite Eu, Eu', E'. reflexivity.
      * unfold uri_of. rewrite T'. destruct (url_dec u' u) as [->|E]; [|reflexivity].
        unfold abs_path_url in U. rewrite T' in U. discriminate.
Qed.

(** For a client that uses canonical URIs, what it sees under a URI is what the server model says
    about the path: so all theorems about paths are theorems about URIs. *)
Theorem C79_canonical_partial : forall c ws g out u p,
  Forall well_formed ws -> Forall closes_canonically ws -> canonical PATH_SEGMENT u -> abs_path_url u = Ok (Some p) ->
  wrun (g_new c) ws = Ok (g, out) ->
  run (g_new c) (map event_of ws) = Ok g /\ at_url u out = at_path (path_of (components p)) (g_sent g).
Proof.
  intros c ws g out u p F C K U H. split; [eapply wrun_run; eauto|].
  eapply (wrun_at u p ws K U (g_new c) g out (g_sent g) F C H); [reflexivity|].
  intros q ds ver X. destruct (C64_only_opened _ _ _ _ _ _ (wrun_run _ _ _ _ H) X) as [(z & t & O1)|[O1 _]].
  - destruct (event_open _ _ _ _ F O1) as (u' & _ & E). destruct (uri_of_file _ _ E) as (q' & _ & ->).
    exists (components q'). split; [apply components_proper|reflexivity].
  - unfold closed_in in O1. destruct (event_close _ _ F O1) as (u' & _ & E). destruct (uri_of_file _ _ E) as (q' & _ & ->).
    exists (components q'). split; [apply components_proper|reflexivity].
Qed.
Print Assumptions C79_canonical_partial.

(** The claim: diagnostics are published under the URI the document was opened with, and gone when
    it is closed. *)
Definition C79_claim : Prop := forall c ws g out, Forall well_formed ws -> wrun (g_new c) ws = Ok (g, out) ->
  forall d, In d out -> w_diags d <> [] -> exists z t, In (WOpen (w_url d) z t) ws.
Definition C79_closed_claim : Prop := forall c ws u g out, Forall well_formed (ws ++ [WElse ETask; WClose u]) ->
  ~ In (WElse (ELsp (MNot NExit))) ws -> (forall v z t, In (WOpen v z t) ws -> v = u) ->
  wrun (g_new c) (ws ++ [WElse ETask; WClose u]) = Ok (g, out) ->
  forall v, fst (last (at_url v out) ([], None)) = [].

Definition file_url (s : string) : url := mkUrl "file" true None [list_ascii_of_string s] None None.
Definition C79_ws : list wevent := [WOpen (file_url "a%2Bb.lua") 1 (txt "x =")] ++ [WElse ETask; WClose (file_url "a%2Bb.lua")].

(** REFUTED: file:///a%2Bb.lua is opened, its diagnostics are published under file:///a+b.lua. *)
Theorem C79_refuted : ~ C79_claim.
Proof.
  intros H. specialize (H [] C79_ws).
  match type of H with forall g out, _ -> wrun ?a ?b = _ -> _ => destruct (wrun a b) as [[g out]| |] eqn:E; vm_compute in E; try discriminate end.
  specialize (H g out). injection E as <- <-.
  destruct (H ltac:(repeat constructor; discriminate) eq_refl _ (or_introl eq_refl) ltac:(discriminate)) as (z & t & X).
  cbn [w_url] in X. repeat (destruct X as [X|X]; [discriminate X|]). contradiction.
Qed.
Print Assumptions C79_refuted.

(** REFUTED: closing it clears file:///a%2Bb.lua; what is shown under file:///a+b.lua stays. *)
Theorem C79_refuted_close : ~ C79_closed_claim.
Proof.
  intros H. specialize (H [] [WOpen (file_url "a%2Bb.lua") 1 (txt "x =")] (file_url "a%2Bb.lua")).
  match type of H with forall g out, _ -> _ -> _ -> wrun ?a ?b = _ -> _ => destruct (wrun a b) as [[g out]| |] eqn:E; vm_compute in E; try discriminate end.
  specialize (H g out). injection E as <- <-.
  specialize (H ltac:(repeat constructor; discriminate) ltac:(intros [X|[]]; discriminate)).
  specialize (H ltac:(intros v z t [X|[]]; now injection X as <-) eq_refl (file_url "a+b.lua")).
  vm_compute in H. discriminate.
Qed.
Print Assumptions C79_refuted_close.

(** With a canonical URI the claim holds. *)
Lemma last_at p l : last_published p l = match at_path p l with [] => None | x => Some (fst (last x ([], None))) end.
Proof.
  induction l as [|o l IH]; [reflexivity|].
  assert (K : last_published p (o :: l) = match last_published p l with Some x => Some x | None => match o with OutDiagnostics (UFile q) ds _ => if String.eqb p q then Some ds else None | _ => None end end).
  { cbn [last_published]. destruct o as [a b|[q|s] ds ver|i]; destruct (last_published p l); reflexivity. }
  rewrite K, IH. change (o :: l) with ([o] ++ l). rewrite at_path_app.
  assert (O1 : at_path p [o] = match o with OutDiagnostics (UFile q) ds ver => if String.eqb p q then [(ds, ver)] else [] | _ => [] end).
  { unfold at_path. cbn [flat_map]. rewrite app_nil_r. destruct o as [a b|[q|s] ds ver|i]; try reflexivity.
    destruct (string_dec q p) as [E1|N]; destruct (String.eqb_spec p q) as [E2|M]; try reflexivity; congruence. }
  rewrite O1. destruct (at_path p l) as [|y ys].
  - rewrite app_nil_r. destruct o as [a b|[q|s] ds ver|i]; try reflexivity. destruct (String.eqb p q); reflexivity.
  - destruct o as [a b|[q|s] ds ver|i]; try reflexivity. destruct (String.eqb p q); reflexivity.
Qed.

Theorem C79_close_partial : forall c ws u g out, Forall well_formed (ws ++ [WElse ETask; WClose u]) ->
  Forall closes_canonically ws -> canonical PATH_SEGMENT u ->
  ~ In (WElse (ELsp (MNot NExit))) ws -> (forall v z t, In (WOpen v z t) ws -> v = u) ->
  wrun (g_new c) (ws ++ [WElse ETask; WClose u]) = Ok (g, out) ->
  forall v, fst (last (at_url v out) ([], None)) = [].
Proof.
  intros c ws u g out F C K NE O1 H v.
  destruct (abs_path_url u) as [[p|]| |] eqn:U.
  2,3,4: exfalso; destruct K as (_ & K2 & K3 & _ & _ & K6); unfold abs_path_url, to_file_path in U; rewrite K2, K3 in U;
    destruct (u_segs u) as [|s ss]; [destruct K6 as [K6|[K6 _]]; congruence|]; cbn in U; discriminate.
  destruct (url_dec v u) as [->|N].
  - destruct (C79_canonical_partial c _ g out u p F) as (R & E); auto.
    { apply Forall_app. split; [exact C|]. constructor; [exact Logic.I|]. constructor; [left; exact K|constructor]. }
    rewrite E. rewrite map_app in R. cbn [map event_of] in R.
    assert (Eu : uri_of u = UFile (path_of (components p))).
    { unfold uri_of. unfold abs_path_url in U. destruct (to_file_path u) as [x|]; [|discriminate]. destruct (is_absolute x); [|discriminate]. now injection U as ->. }
    rewrite Eu in R.
    pose proof (C64_close_partial c (map event_of ws) [] g (path_of (components p))) as Q.
    rewrite app_nil_r in Q. specialize (Q ltac:(intros X; apply NE; apply in_map_iff in X as (w & X1 & X2); destruct w as [a b d|a b d|a|e]; cbn in X1; try discriminate; now subst) R ltac:(intros (z & t & []))).
    rewrite last_at in Q. destruct (at_path (path_of (components p)) (g_sent g)) as [|y ys]; [reflexivity|]. congruence.
  - destruct (at_url v out) as [|y ys] eqn:E; [reflexivity|].
    assert (X : In (last (y :: ys) ([], None)) (at_url v out)).
    { rewrite E. destruct (exists_last (l := y :: ys)) as (l' & a & ->); [discriminate|]. rewrite last_last. apply in_app_iff. right. now left. }
    rewrite <- E in *. unfold at_url in X at 2. apply in_flat_map in X as (d & D & X).
    destruct (url_dec (w_url d) v) as [Ed|]; [|contradiction]. destruct X as [X|[]]. rewrite <- X. cbn [fst].
    destruct (w_diags d) as [|x xs] eqn:W; [reflexivity|exfalso].
    destruct (C79_published_under c _ g out d F H D ltac:(rewrite W; discriminate)) as (u0 & z & t & q & I1 & A & B).
    apply in_app_iff in I1 as [I1|[I1|[I1|[]]]]; try discriminate. apply O1 in I1 as ->.
    apply (C79_canonical_exactly _ _ _ percent_in_set A) in K. congruence.
Qed.
Print Assumptions C79_close_partial.

(** ** Decoding *)

Lemma value_digit c n : hex_value c = Some n -> digit (N.to_nat n) c.
Proof.
  intros H. destruct c as [[] [] [] [] [] [] [] []]; vm_compute in H; try discriminate H; injection H as <-;
    first [left; reflexivity|right; reflexivity].
Qed.
Lemma digit_value v c : digit v c <-> hex_value c = Some (N.of_nat v).
Proof.
  split.
  - intros [H|H]; do 16 (destruct v as [|v]; [cbn in H; injection H as <-; reflexivity|]); destruct v; discriminate H.
  - intros H. apply value_digit in H. now rewrite Nat2N.id in H.
Qed.

Lemma decode_rules n : forall s, length s <= n -> stands_for s (percent_decode s).
Proof.
  induction n as [|n IH]; intros [|c s] L; try constructor; try (cbn in L; lia).
  cbn [percent_decode]. cbn in L.
  assert (P : ~ (c = "%"%char /\ exists a b h l s', s = h :: l :: s' /\ digit a h /\ digit b l) ->
              stands_for (c :: s) (c :: percent_decode s)).
  { intros N. apply s_itself; [exact N|]. apply IH. lia. }
  destruct (Ascii.eqb_spec c "%") as [->|N]; [|apply P; tauto].
  destruct s as [|h [|l s]]; try (apply P; intros (_ & a & b & h' & l' & s' & E & _); discriminate E).
  destruct (hex_value h) as [a|] eqn:A; [destruct (hex_value l) as [b|] eqn:B|].
  - replace (ascii_of_N (16 * a + b)) with (ascii_of_nat (16 * N.to_nat a + N.to_nat b))
      by (unfold ascii_of_nat; f_equal; lia).
    apply s_escape; [now apply value_digit|now apply value_digit|]. apply IH. cbn in L. lia.
  - apply P. intros (_ & a' & b' & h' & l' & s' & E & _ & D). injection E as <- <- <-. apply digit_value in D. congruence.
  - apply P. intros (_ & a' & b' & h' & l' & s' & E & D & _). injection E as <- <- <-. apply digit_value in D. congruence.
Qed.
Lemma digit_unique a b c : digit a c -> digit b c -> a = b.
Proof. intros A B. apply digit_value in A, B. rewrite A in B. injection B as B. lia. Qed.
Lemma stands_unique s d : stands_for s d -> forall d', stands_for s d' -> d = d'.
Proof.
  induction 1 as [|a b h l s d A B _ IH|c s d N _ IH]; intros d' H'; inversion H' as [|a' b' h' l' s' d1 A' B' S'|c' s' d1 N' S']; subst; auto.
  - now rewrite (digit_unique _ _ _ A A'), (digit_unique _ _ _ B B'), (IH _ S').
  - exfalso. apply N'. split; [reflexivity|]. now exists a, b, h, l, s.
  - exfalso. apply N. split; [reflexivity|]. now exists a', b', h', l', s'.
  - now rewrite (IH _ S').
Qed.
(** What percent decoding does, for every byte string. *)
Theorem C79_decoding : forall s d, percent_decode s = d <-> stands_for s d.
Proof.
  intros s d. split; [intros <-; now apply (decode_rules (length s))|].
  intros H. apply (stands_unique s); [now apply (decode_rules (length s))|exact H].
Qed.
Print Assumptions C79_decoding.

Lemma decode_all segs ds : Forall2 stands_for segs ds <-> map percent_decode segs = ds.
Proof.
  split.
  - induction 1 as [|s d segs ds H _ IH]; [reflexivity|]. cbn. now rewrite (proj2 (C79_decoding s d) H), IH.
  - intros <-. induction segs as [|s segs IH]; constructor; [now apply C79_decoding|exact IH].
Qed.
Lemma flat_concat segs : flat_map (fun s => "/"%char :: percent_decode s) segs = concat (map (cons "/"%char) (map percent_decode segs)).
Proof. rewrite flat_map_concat_map, map_map. reflexivity. Qed.
Lemma names_to_file u p : names u p <-> to_file_path u = Some p.
Proof.
  unfold names, to_file_path. destruct (u_base u).
  2: { split; [intros (E & _)|]; discriminate. }
  rewrite flat_concat. destruct (u_host u) as [h|]; [destruct (String.eqb_spec h "localhost") as [->|N]|].
  - split; [intros (_ & _ & ds & D & ->); apply decode_all in D as <-; reflexivity|].
    intros E. split; [reflexivity|]. split; [now right|]. exists (map percent_decode (u_segs u)). split; [now apply decode_all|congruence].
  - split; [intros (_ & [E|E] & _); congruence|discriminate].
  - split; [intros (_ & _ & ds & D & ->); apply decode_all in D as <-; reflexivity|].
    intros E. split; [reflexivity|]. split; [now left|]. exists (map percent_decode (u_segs u)). split; [now apply decode_all|congruence].
Qed.
(** The document a URI names, for every URI: its path; a URI that names no path is refused, and only one
    without segments panics (no parsed URL that can be a base has none). *)
Theorem C79_denotes : forall u,
  (forall p, abs_path_url u = Ok (Some p) <-> names u p /\ u_segs u <> []) /\
  (abs_path_url u = Ok None <-> forall p, ~ names u p) /\
  (abs_path_url u = Panic <-> (exists p, names u p) /\ u_segs u = []).
Proof.
  intros u. unfold abs_path_url.
  assert (Ab : forall p, to_file_path u = Some p -> is_absolute p = true <-> u_segs u <> []).
  { intros p E. unfold to_file_path in E. destruct (u_base u); [|discriminate].
    assert (E' : p = flat_map (fun s => "/"%char :: percent_decode s) (u_segs u))
      by (destruct (u_host u) as [h|]; [destruct (String.eqb h "localhost")|]; congruence).
    subst p. destruct (u_segs u); cbn; split; congruence. }
  destruct (to_file_path u) as [q|] eqn:E.
  - pose proof (proj2 (names_to_file u q) E) as Nq. specialize (Ab q eq_refl).
    assert (U : forall p, names u p -> p = q) by (intros p H; apply names_to_file in H; congruence).
    destruct (is_absolute q).
    + split; [|split].
      * intros p. split; [intros H; injection H as <-; split; [exact Nq|now apply Ab]|]. intros (H & _). now rewrite (U _ H).
      * split; [discriminate|]. intros H. now destruct (H q).
      * split; [discriminate|]. intros (_ & H). exfalso. now apply (proj1 Ab eq_refl).
    + assert (Z : u_segs u = []) by (destruct (u_segs u); [reflexivity|]; exfalso; assert (false = true) by (apply Ab; discriminate); discriminate).
      split; [|split].
      * intros p. split; [discriminate|]. intros (_ & H). contradiction.
      * split; [discriminate|]. intros H. now destruct (H q).
      * split; [|reflexivity]. intros _. split; [now exists q|exact Z].
  - assert (U : forall p, ~ names u p) by (intros p H; apply names_to_file in H; congruence).
    split; [|split].
    + intros p. split; [discriminate|]. intros (H & _). now apply U in H.
    + split; [intros _; exact U|reflexivity].
    + split; [discriminate|]. intros ((p & H) & _). now apply U in H.
Qed.
Print Assumptions C79_denotes.
Example C79_ex_denotes : names (mkUrl "git" true (Some "localhost"%string) (map list_ascii_of_string ["my%20dir"; "100%"; "%C3%a9"]%string) (Some "HEAD"%string) None)
  (list_ascii_of_string "/my dir/100%/" ++ ["195"; "169"]%char).
Proof. apply names_to_file. reflexivity. Qed.

(** The scheme, the query and the case of escapes do not matter: these four name one document. *)
Example C79_ex_same : map uri_of
    [file_url "a%2Bb.lua"; file_url "a+b.lua"; file_url "a%2bb.lua"; mkUrl "git" true None [list_ascii_of_string "a+b.lua"] (Some "HEAD"%string) None]
  = repeat (UFile "/a+b.lua"%string) 4.
Proof. reflexivity. Qed.
Example C79_ex_space : url_from_abs_path PATH_SEGMENT (list_ascii_of_string "/home/./my dir//x.lua")
  = Ok (mkUrl "file" true None (map list_ascii_of_string ["home"; "my%20dir"; "x.lua"]%string) None None).
Proof. reflexivity. Qed.
Example C79_ex_canonical : canonical PATH_SEGMENT (mkUrl "file" true None (map list_ascii_of_string ["home"; "my%20dir"; "x.lua"]%string) None None).
Proof.
  apply (C79_canonical_exactly PATH_SEGMENT (mkUrl "file" true None (map list_ascii_of_string ["home"; "my%20dir"; "x.lua"]%string) None None) (list_ascii_of_string "/home/my dir/x.lua") eq_refl eq_refl). reflexivity.
Qed.
(** A canonical client and what it sees. *)
Example C79_ex_wire : match wrun (g_new []) [WOpen (file_url "a+b.lua") 1 (txt "x ="); WElse ETask; WClose (file_url "a+b.lua")] with
  | Ok (_, out) => map (fun x => length (fst x)) (at_url (file_url "a+b.lua") out) = [1; 0] | _ => False end.
Proof. vm_compute. reflexivity. Qed.
