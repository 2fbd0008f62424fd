(** What should be shown of targets with passwords and of sources. *)
From Coq Require Import String Ascii List Arith NArith Bool.
From Verif Require Import Str Target.
Import ListNotations.
Open Scope list_scope.

(** The text [p] can be read in [t]. *)
Definition occurs (p t : str) : Prop := exists a b, t = a ++ p ++ b.

Definition letter (c : ascii) : Prop := In c (lit "abcdefghijklmnopqrstuvwxyzABCDEFGHIJKLMNOPQRSTUVWXYZ").
Definition digit (c : ascii) : Prop := In c (lit "0123456789").
Definition user_char (c : ascii) : Prop := letter c \/ digit c \/ In c (lit "-._~!$&'()+,;=").
Definition password_char (c : ascii) : Prop := user_char c \/ In c (lit ":@").
Definition host_char (c : ascii) : Prop := letter c \/ digit c \/ In c (lit "-._").
(** Characters after the address: printable, but not those with a special meaning. *)
Definition rest_char (c : ascii) : Prop := (32 <= N_of_ascii c)%N /\ N_of_ascii c <> 127%N /\ ~ In c (lit "#%").

(** Scheme of a URL. *)
Inductive scheme_text : str -> Prop :=
| scheme_text_intro c s : letter c -> Forall (fun d => letter d \/ digit d \/ In d (lit "+-.")) s -> scheme_text (c :: s).

(** Types of the query log. *)
Definition kinds : list str := [$"console"; $"none"; $"mysql"; $"postgresql"; $"csv"; $"csv-client"; $"timescale"].

(** Target written as a URL: [user:password@host:port/…], with or without a scheme. *)
Inductive url_target (user pw : str) : str -> Prop :=
| url_target_intro front host port rest :
    (front = [] \/ exists s, scheme_text s /\ front = s ++ $"://") ->
    Forall user_char user -> Forall password_char pw -> pw <> [] -> Forall host_char host ->
    (port = [] \/ exists ds, Forall digit ds /\ port = ":"%char :: ds) ->
    (rest = [] \/ exists c r, rest = c :: r /\ In c (lit "/?")) -> Forall rest_char rest ->
    (front = [] -> ~ occurs ($"://") (user ++ $":" ++ pw ++ $"@" ++ host ++ port ++ rest)) ->
    url_target user pw (front ++ user ++ $":" ++ pw ++ $"@" ++ host ++ port ++ rest).

(** Target as the MySQL driver and the documentation have it: [user:password@tcp(host:port)/db?…]. *)
Inductive mysql_target (user pw : str) : str -> Prop :=
| mysql_target_intro host port rest :
    Forall user_char user -> Forall password_char pw -> Forall host_char host -> Forall digit port -> Forall rest_char rest ->
    mysql_target user pw (user ++ $":" ++ pw ++ $"@tcp(" ++ host ++ $":" ++ port ++ $")/" ++ rest).
