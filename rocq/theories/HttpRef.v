(** HTTP parsers: concrete cases that meet the hypotheses of the theorems, and cases in which the code departs from RFC 2616. *)
From Coq Require Import String Ascii ZifyBool.
From Verif Require Import Base StringModel StringSpec ParserModel ParserSpec HtmlTagModel HttpModel HttpSpec HttpProps HttpUrlSpec HttpUrl HttpMsgSpec.
Import List.ListNotations. Open Scope Z_scope.

Definition zs (s : string) : list Z := map (fun c => Z.of_nat (nat_of_ascii c)) (list_ascii_of_string s).
Definition crlf : list Z := [13; 10].

(** The hypotheses of the theorems: a counted text, and one with a terminator *)
Definition request : list Z := (zs "GET /a/b?x=1&y=2 HTTP/1.1" ++ crlf ++ [0])%list.
Example request_ok : chars request /\ text_ok request 0 100 /\ terminated request 0 100 /\ (forall c, tolower c = 0 <-> c = 0).
Proof.
  split. { apply Forall_forall. intros c I. vm_compute in I. repeat (destruct I as [<-|I]; [lia|]). destruct I. }
  split. { split; [lia|]. split; [lia|]. right. vm_compute. tauto. }
  split. { unfold terminated. vm_compute. lia. }
  intros c. unfold tolower, isupper. destruct ((65 <=? c) && (c <=? 90)) eqn:E; [|lia]. apply andb_prop in E. rewrite Z.lor_eq_0_iff. lia.
Qed.
Example request_parsed : http_request request tolower 0 100 =
  Ret (Some (HRequest (0, 3)%nat (HUrl no_itv (HPort no_itv 80) (4, 8)%nat [(5, 6); (7, 8)]%nat [HUParam (9, 10)%nat (11, 12)%nat 12; HUParam (13, 14)%nat (15, 16)%nat 16] 16)
    (Some (HProto (17, 21)%nat (22, 23)%nat (24, 25)%nat 257 25)) 27)).
Proof. vm_compute. reflexivity. Qed.
Definition header : list Z := (zs "Accept: text/html;" ++ crlf ++ zs " q=1 " ++ crlf ++ zs "Host: x" ++ crlf)%list.
Example header_parsed : http_header header 0 (length header) = Ret (Some (HHeader (0, 6)%nat (Some (8, 24)%nat) 27)).
Proof. vm_compute. reflexivity. Qed.
Example weights_parsed :
  let l := zs "en-GB;q=0.5, sl , * ; q=.25" in
  collect_loop l (http_weighted l (http_asterisk l) (http_language l) snd None) snd (fun a x => a ++ [x])%list (S (length l)) 0 (length l) [] =
  Ret [(inr ([(0, 2); (3, 5)]%nat, 5%nat), Some (HWeight (8, 11)%nat 0 5 10), 11%nat); (inr ([(13, 15)]%nat, 15%nat), None, 15%nat); (inl (18, 19)%nat, Some (HWeight (24, 27)%nat 0 25 100), 27%nat)].
Proof. vm_compute. reflexivity. Qed.
Example cookie_parsed :
  let l := zs "id = ""a b"" ; $Path=/x; $Version = 1" in
  http_cookie l 0 (length l) = Ret (Some (HParam 0 (0, 2)%nat (HQuoted (5, 10)%nat (6, 9)%nat) 10, [], 10%nat)) /\
  let l := zs "id = ""a b"" ; $Path=x; $Version = 1" in
  http_cookie l 0 (length l) = Ret (Some (HParam 0 (0, 2)%nat (HQuoted (5, 10)%nat (6, 9)%nat) 10, [HParam 13 (14, 18)%nat (HToken (19, 20)%nat) 20; HParam 22 (23, 30)%nat (HToken (33, 34)%nat) 34], 34%nat)).
Proof. vm_compute. split; reflexivity. Qed.
Example media_parsed :
  let l := zs "text/html; charset=utf-8" in
  http_media_type l 0 (length l) = Ret (Some (HMedia (0, 4)%nat (5, 9)%nat [HParam 11 (11, 18)%nat (HToken (19, 24)%nat) 24] 24)).
Proof. vm_compute. reflexivity. Qed.

(** ** Departures *)
(** White space in a header value may take the end of the header with it: behind the first line break any white space is taken, even
    another line break.  RFC 2616, 2.2: LWS is [CRLF] 1*( SP | HT ). *)
Theorem http_space_takes_an_empty_line : exists txt y, http_space txt 0 (length txt) = Ret (Some y) /\ ~ lws (firstn y txt).
Proof.
  exists (crlf ++ crlf ++ zs " x")%list, 5%nat. split; [vm_compute; reflexivity|]. intros (u & b & E & U & _ & F). vm_compute in E. destruct U as [-> | ->].
  - cbn [app] in E. subst b. inversion F; subst. lia.
  - cbn [app] in E. injection E as <-. inversion F; subst. lia.
Qed.
(** A quoted string may hold any octet that is not a control character (RFC 2616, 2.2: qdtext is any TEXT except the quotation mark);
    char is signed, and octets of 128 and above are refused *)
Theorem http_quoted_string_refuses_octets : forall c, -128 <= c < 0 -> http_quoted_string [34; c; 34] 0 3 = Ret None.
Proof.
  intros c H. assert (C : chars [34; c; 34]) by (repeat constructor; lia). assert (T : text_ok [34; c; 34] 0 3). { split; [lia|]. split; [cbn; lia|]. left. cbn. lia. }
  assert (V : vis [34; c; 34] 0 3 = [34; c; 34]). { unfold vis. change (skipn 0 [34; c; 34]) with [34; c; 34]. change (3 - 0)%nat with 3%nat. cbn [zstr]. replace (c =? 0) with false by lia. reflexivity. }
  destruct (http_quoted_string_spec _ 0%nat 3%nat T) as (r & E & R). rewrite E. f_equal. destruct r as [[k y]|]; auto. exfalso. destruct (proj1 (R k y) eq_refl) as (b & t & Eb & Q & _). rewrite V in Eb. injection Eb as Eb.
  destruct Q as [|c' b Q|c' b C1 C2 C3 Q|c' b C1 C2 Q]; cbn [app] in Eb; injection Eb as -> Eb; try lia. unfold is_white, white in C1. lia.
Qed.
(** White space behind the sign is taken only where there is no sign *)
Theorem http_parameter_white_space : http_parameter (zs "a =b") 0 4 = Ret (Some (HParam 0 (0, 1)%nat (HToken (3, 4)%nat) 4)) /\ http_parameter (zs "a = b") 0 5 = Ret None /\ http_parameter (zs "a b") 0 3 = Ret (Some (HParam 0 (0, 1)%nat (HToken (2, 3)%nat) 3)).
Proof. vm_compute. auto. Qed.
(** The path of an address that ends behind the server: a counted text matches, with an end beyond the end of the text; the same
    text with a terminator does not match *)
Theorem http_url_end_beyond : let l := zs "http://server" in
  (exists u, http_url l tolower 0 13 = Ret (Some u) /\ ur_end u = 14%nat) /\ http_url (l ++ [0])%list tolower 0 100 = Ret None.
Proof. vm_compute. split; [eexists; split; reflexivity|reflexivity]. Qed.
(** The unit at the end is read: outside of the text, or beyond the limit given *)
Theorem http_url_parameter_reads_end : http_url_parameter (zs "a") 0 1 = UB /\ http_url_parameter (zs "a=b") 0 1 = Ret (Some (HUParam (0, 1)%nat (2, 2)%nat 2)).
Proof. vm_compute. auto. Qed.
(** A colon without a number (which RFC 2616, 3.2.2 takes for port 80) gives port 0, and so does a number that is too large, which is then part of no path *)
Theorem http_url_port_zero : let l := (zs "http://a:/" ++ [0])%list in (exists u, http_url l tolower 0 100 = Ret (Some u) /\ ho_value (ur_port u) = 0) /\ http_url (zs "http://a:65536/" ++ [0])%list tolower 0 100 = Ret None.
Proof. vm_compute. split; [eexists; split; reflexivity|reflexivity]. Qed.
(** 64 decimals: the denominator is 2^64 * 5^64, which is 0 modulo 2^64 *)
Theorem http_weight_denominator_zero : exists l w, Forall digit_char (skipn 2 l) /\ http_weight l 0 (length l) = Ret (Some w) /\ hw_den w = 0.
Proof. exists (zs "0." ++ repeat 53%Z 64)%list. eexists. split; [|split; [vm_compute; reflexivity|reflexivity]]. vm_compute. repeat constructor; discriminate. Qed.
(** An object that is matched a second time keeps the weight, or the version, of the first *)
Theorem http_weighted_stale : let l := zs "sl" in forall w, http_weighted l (http_asterisk l) (http_language l) snd (Some w) 0 2 = Ret (Some (inr ([(0, 2)]%nat, 2%nat), Some w, 2%nat)).
Proof. intros l w. vm_compute. reflexivity. Qed.
Theorem http_agent_stale : forall old, http_agent (zs "curl") old 0 4 = Ret (Some ((0, 4)%nat, old, 4%nat)).
Proof. intros old. vm_compute. reflexivity. Qed.
(** The minor number runs over into the major one *)
Theorem http_protocol_carries : exists p, http_protocol (zs "HTTP/1.256 ") 0 11 = Ret (Some p) /\ pr_version p = 512.
Proof. eexists. vm_compute. split; reflexivity. Qed.
(** The protocol must have white space behind it *)
Theorem http_protocol_needs_white_space : http_protocol (zs "HTTP/1.1") 0 8 = Ret None.
Proof. vm_compute. reflexivity. Qed.
(** An empty element (RFC 2616, 2.1: allowed, and not counted) ends a list, and so does a weight that is not a number *)
Theorem http_list_empty_element : let l := zs "a,,b" in collect_loop l (http_token l) (fun y => y) (fun l y => l ++ [y])%list (S (length l)) 0 4 [] = Ret [1%nat].
Proof. vm_compute. reflexivity. Qed.
Theorem http_list_bad_weight : let l := zs "a;q=x,b" in
  collect_loop l (http_weighted l (http_asterisk l) (http_language l) snd None) snd (fun a x => a ++ [x])%list (S (length l)) 0 (length l) [] = Ret [(inr ([(0, 1)]%nat, 1%nat), None, 1%nat)].
Proof. vm_compute. reflexivity. Qed.
(** A header without a name *)
Theorem http_header_no_name : http_header (zs ":x") 0 2 = Ret (Some (HHeader (0, 0)%nat (Some (1, 2)%nat) 2)).
Proof. vm_compute. reflexivity. Qed.
