(** MIME types: cases that meet the hypotheses of Mime.v, and where the code departs from RFC 2045, 5.1. *)
From Coq Require Import String Ascii ZifyBool.
From Verif Require Import Base StringModel StringSpec ParserModel ParserSpec HtmlTagModel HttpModel HttpSpec HttpProps HttpUrlSpec HttpUrl HttpRef MimeModel MimeSpec Mime.
Import List.ListNotations. Open Scope Z_scope.

Example mime_parsed :
  mime_type (zs "text/html") isspace 0 9 = Ret (Some (Mime (0, 4)%nat (5, 9)%nat no_itv 9)) /\
  mime_type (zs "text/html; CharSet='utf-8' x") isspace 0 28 = Ret (Some (Mime (0, 4)%nat (5, 9)%nat (20, 25)%nat 26)) /\
  mime_type (zs "text/html; charset=utf-8 x") isspace 0 26 = Ret (Some (Mime (0, 4)%nat (5, 9)%nat (19, 24)%nat 24)) /\
  mime_type (zs "text/html; charset='utf-8 x") isspace 0 27 = Ret (Some (Mime (0, 4)%nat (5, 9)%nat no_itv 27)) /\
  mime_type (zs "text /html") isspace 0 10 = Ret None /\ text_ok (zs "text/html") 0 9.
Proof. repeat (split; [vm_compute; reflexivity|]). split; [lia|]. split; [lia|]. left. cbn. lia. Qed.

Definition token_ch (c : Z) : Prop := 33 <= c <= 126 /\ ~ In c (zs "()<>@,;:\/[]?="""). (* RFC 2045, 5.1 *)
Definition mtoken (w : list Z) : Prop := w <> [] /\ Forall token_ch w.
(** [; name=value] with tokens and one space *)
Definition param (n v : list Z) : list Z := (zs "; " ++ n ++ zs "=" ++ v)%list.
(** The charset of a type is the value of its parameter charset, wherever that stands among the parameters. *)
Definition charset_is_parameter : Prop := forall t s before n after v m, mtoken t -> mtoken s -> Forall (fun p => mtoken (fst p) /\ mtoken (snd p) /\ fst p <> zs "charset") (before ++ after) -> mtoken v -> n = zs "charset" ->
  let all := (t ++ zs "/" ++ s ++ concat (map (fun p => param (fst p) (snd p)) before) ++ param n v ++ concat (map (fun p => param (fst p) (snd p)) after))%list in
  mime_type all isspace 0 (length all) = Ret (Some m) -> firstn (snd (mi_charset m) - fst (mi_charset m)) (skipn (fst (mi_charset m)) all) = v.
(** It is not: a parameter before it hides it; and one behind it, without a space, is taken for a part of it *)
Theorem charset_is_parameter_refuted : ~ charset_is_parameter.
Proof.
  intros H. specialize (H (zs "text") (zs "plain") [(zs "format", zs "flowed")] (zs "charset") [] (zs "utf-8") (Mime (0, 4)%nat (5, 10)%nat no_itv 12)).
  assert (M : forall w, w <> [] -> forallb (fun c => (33 <=? c) && (c <=? 126) && negb (existsb (fun d => c =? d) (zs "()<>@,;:\/[]?="""))) w = true -> mtoken w).
  { intros w N F. split; auto. rewrite forallb_forall in F. apply Forall_forall. intros c I. specialize (F c I). apply andb_prop in F. destruct F as [A B]. split; [lia|]. intros J. assert (existsb (fun d => c =? d) (zs "()<>@,;:\/[]?=""") = true) by (apply existsb_exists; exists c; split; [auto|lia]). rewrite H0 in B. discriminate. }
  enough (E : [] = zs "utf-8") by discriminate. apply H; try (apply M; [discriminate|vm_compute; reflexivity]); auto.
  cbn [app]. constructor; [|constructor]. cbn [fst snd]. split; [apply M; [discriminate|vm_compute; reflexivity]|]. split; [apply M; [discriminate|vm_compute; reflexivity]|]. discriminate.
Qed.
(** The charset that is not quoted goes on to the blank (or the end): the semicolon and the next parameter belong to it. *)
Theorem charset_up_to_blank : forall sp t s x, Forall (type_char sp) t -> t <> [] -> Forall (type_char sp) s -> s <> [] -> ~ blank sp 99 -> Forall (fun c => ~ blank sp c) x -> (forall q, first_is q x -> ~ is_quote q) ->
  Forall (fun c => c <> 0) (t ++ s ++ x) ->
  let all := (t ++ zs "/" ++ s ++ zs ";charset=" ++ x)%list in
  exists m, mime_type all sp 0 (length all) = Ret (Some m) /\ mi_charset m = (length all - length x, length all)%nat.
Proof.
  intros sp t s x Ft Nt Fs Ns B Fx Q NZ all. assert (T : text_ok all 0 (length all)). { split; [lia|]. split; [lia|]. left. rewrite Nat.sub_0_r. cbn. lia. }
  assert (NZ' : Forall (fun c => c <> 0) all). { unfold all. apply Forall_app in NZ. destruct NZ as [A NZ]. apply Forall_app in NZ. destruct NZ as [B' C']. repeat (apply Forall_app; split); auto; repeat constructor; discriminate. }
  assert (V : vis all 0 (length all) = all). { unfold vis. rewrite Nat.sub_0_r. change (skipn 0 all) with all. clear - NZ'. induction all as [|c l IH]; auto. inversion NZ'; subst. cbn [zstr length]. replace (c =? 0) with false by lia. rewrite IH; auto. }
  destruct (mime_type_spec all sp 0 (length all) T) as (o & E & O). rewrite V in O.
  assert (M : mime_at sp 0 all (Mime (0, length t)%nat (length t + 1, length t + 1 + length s)%nat (length all - length x, length all)%nat (length all)) []).
  { exists t, (s ++ zs ";charset=" ++ x)%list, s, (zs ";charset=" ++ x)%list, (length all - length x, length all)%nat.
    assert (LA : length all = (length t + 1 + length s + 9 + length x)%nat). { unfold all. rewrite !app_length. cbn [zs list_ascii_of_string map length]. lia. }
    split. { split; [reflexivity|]. split; auto. cbn. unfold type_char. lia. } split; auto. split. { split; [reflexivity|]. split; auto. cbn. unfold type_char. lia. } split; auto. split.
    - change (zs ";charset=" ++ x)%list with (59 :: str_charset ++ x)%list. apply (op_charset sp _ _ [] str_charset x).
      + split; [reflexivity|]. split; [constructor|]. exact B.
      + unfold key, str_charset. repeat (constructor; [left; reflexivity|]). constructor.
      + replace (length all - length x, length all)%nat with (0 + length t + 1 + length s + 1 + length (@nil Z) + length str_charset, 0 + length t + 1 + length s + 1 + length (@nil Z) + length str_charset + length x)%nat by (f_equal; rewrite LA; cbn [length str_charset]; lia).
        apply cs_plain; auto. split; [symmetry; apply app_nil_r|]. split; auto. cbn. auto.
    - rewrite Nat.sub_0_r. reflexivity. }
  exists (Mime (0, length t)%nat (length t + 1, length t + 1 + length s)%nat (length all - length x, length all)%nat (length all)). split; [|reflexivity]. rewrite E. f_equal. apply O. eauto.
Qed.
