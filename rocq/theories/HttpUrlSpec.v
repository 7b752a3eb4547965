(** Specification of HTTP addresses and of the other parts of a request, over the units a parser sees from a position on. *)
From Verif Require Import Base StringSpec HtmlTagModel HttpModel HttpSpec.

(** not a control character, not white space *)
Definition graphic (c : Z) : Prop := c < 0 \/ 32 < c < 127.
Definition server_char (c : Z) : Prop := graphic c /\ c <> 58 /\ c <> 47.
Definition segment_char (c : Z) : Prop := graphic c /\ c <> 63 /\ c <> 47.
Definition pname_char (c : Z) : Prop := graphic c /\ c <> 38 /\ c <> 61.
Definition pvalue_char (c : Z) : Prop := graphic c /\ c <> 38.
Definition digit_char (c : Z) : Prop := 48 <= c <= 57.
Definition first_is (c : Z) (v : list Z) : Prop := exists r, v = c :: r.

(** A port: digits that make a number below 65536 *)
Definition port_at (i : nat) (v : list Z) (p : hport) (r : list Z) : Prop :=
  exists d, longest digit_char v d r /\ d <> [] /\ numeral_value 10 d <= 65535 /\ p = HPort (i, i + length d)%nat (numeral_value 10 d).
(** A path: segments, each behind a slash, as many as there are *)
Inductive path_at : nat -> list Z -> list itv -> list Z -> Prop :=
| path_last : forall i v w r, longest segment_char v w r -> ~ first_is 47 r -> path_at i (47 :: v) [(i + 1, i + 1 + length w)%nat] r
| path_more : forall i v w t l r, longest segment_char v w t -> path_at (i + 1 + length w) t l r -> path_at i (47 :: v) ((i + 1, i + 1 + length w)%nat :: l) r.
(** A parameter: name, or name = value *)
Definition uparam_at (i : nat) (v : list Z) (p : huparam) (r : list Z) : Prop :=
  exists n t, longest pname_char v n t /\ n <> [] /\
    ((exists u x, t = 61 :: u /\ longest pvalue_char u x r /\ let k := (i + length n + 1)%nat in p = HUParam (i, i + length n)%nat (k, k + length x)%nat (k + length x)) \/
     (~ first_is 61 t /\ r = t /\ p = HUParam (i, i + length n)%nat no_itv (i + length n))).
(** What follows the question mark: parameters with ampersands between (or in front of) them, up to white space or a control
    character, or up to a parameter without a name *)
Inductive query_at : nat -> list Z -> list huparam -> list Z -> Prop :=
| query_end : forall i v, stops (fun c => graphic c /\ c <> 61) v -> query_at i v [] v
| query_amp : forall i v l r, query_at (i + 1) v l r -> query_at i (38 :: v) l r
| query_param : forall i v p t l r, uparam_at i v p t -> query_at (hu_end p) t l r -> query_at i v (p :: l) r.
(** The start of an address: http:// (in any case), the server and the port.  A colon without a port behind it is skipped, and the
    port is then 0.  [v1] is what follows, at [i]. *)
Definition absolute (tolow : Z -> Z) (v : list Z) : Prop := map tolow (firstn 7 v) = map tolow str_http.
Definition head_at (tolow : Z -> Z) (s : nat) (v : list Z) (server : itv) (port : hport) (i : nat) (v1 : list Z) : Prop :=
  (absolute tolow v /\ exists sv t, longest server_char (skipn 7 v) sv t /\ sv <> [] /\ server = (s + 7, s + 7 + length sv)%nat /\
     ((exists u, t = 58 :: u /\ port_at (s + 7 + length sv + 1) u port v1 /\ i = snd (ho_itv port)) \/
      (t = 58 :: v1 /\ (forall k p r, ~ port_at k v1 p r) /\ port = HPort no_itv 0 /\ i = (s + 7 + length sv + 1)%nat) \/
      (~ first_is 58 t /\ v1 = t /\ port = HPort no_itv 80 /\ i = (s + 7 + length sv)%nat))) \/
  (~ absolute tolow v /\ server = no_itv /\ port = HPort no_itv 80 /\ i = s /\ v1 = v).
Definition url_at (tolow : Z -> Z) (s : nat) (v : list Z) (u : hurl) (r : list Z) : Prop :=
  exists server port i v1 segs v2 l y, head_at tolow s v server port i v1 /\ path_at i v1 segs v2 /\
    ((exists v3, v2 = 63 :: v3 /\ query_at (i + length v1 - length v3) v3 l r) \/ (~ first_is 63 v2 /\ l = [] /\ r = v2)) /\
    y = (s + length v - length r)%nat /\
    u = HUrl server port (i, i + length v1 - length v2)%nat segs l y.
