(** Model of the HTTP exchange between the Go clients and the services: net/url and net/http (go 1.22) as far as they are
    used, pkg/clients and pkg/models/api.  No proofs in this file.

    The body of a request or an answer is a tree (Json.v).  The address of the service (cfg.URL, pkg/clients/client_config.go:14)
    is a scheme and a host; headers are left out: all calls modelled here set Content-Type (pkg/clients/http_request.go:19-39),
    which is all that internal/middleware/encoder.go asks for. *)
From Coq Require Import String Ascii List Bool NArith ZArith.
Import ListNotations.
From Verif Require Import Json Models.
Local Open Scope Z_scope.
Local Open Scope bool_scope.

Inductive method := GET | POST | PUT | DELETE.

(** ** Addresses *)
(** strings.Cut *)
Fixpoint cut (c : ascii) (s : string) : string * string :=
  match s with
  | EmptyString => (EmptyString, EmptyString)
  | String x r => if Ascii.eqb x c then (EmptyString, r) else let '(a, b) := cut c r in (String x a, b)
  end.
(** url.go stringContainsCTLByte *)
Definition control (c : ascii) : bool := ((N_of_ascii c <? 32) || (N_of_ascii c =? 127))%N.
Fixpoint has_control (s : string) : bool := match s with EmptyString => false | String c r => control c || has_control r end.
(** url.go unhex *)
Definition unhex (c : ascii) : option N :=
  let n := N_of_ascii c in
  if between 48 57 c then Some (n - 48)%N else if between 97 102 c then Some (n - 87)%N else if between 65 70 c then Some (n - 55)%N else None.
(** url.go unescape (modes encodePath and encodeFragment): [None] = error *)
Fixpoint unescape (s : string) : option string :=
  match s with
  | EmptyString => Some EmptyString
  | String c r =>
      if Ascii.eqb c "%" then
        match r with
        | String a (String b r') =>
            bind (unhex a) (fun x => bind (unhex b) (fun y => option_map (String (ascii_of_N (x * 16 + y))) (unescape r')))
        | _ => None
        end
      else option_map (String c) (unescape r)
  end.
(** url.go Parse of the service's address followed by [s]: the path.  It is what the service sees: the client writes it
    escaped (EscapedPath) into the request line, and the server unescapes it.  [None]: NewRequest returns an error.  (A query
    with a space makes an HTTP/1 request that the server refuses, which is not modelled.) *)
Definition url_path (s : string) : option string :=
  let '(u, frag) := cut "#" s in
  if has_control u then None
  else bind (unescape frag) (fun _ => unescape (fst (cut "?" u))).

(** ** Requests and answers *)
Record request := mkReq { rq_method : method; rq_path : string; rq_body : option json }.
(** http.NewRequest; the body is [None] if there is none *)
Definition ask (m : method) (url : string) (body : option json) : option request := option_map (fun p => mkReq m p body) (url_path url).
(** A status and a body, or none because the handler panicked: net/http then closes the connection *)
Inductive response := Answer (status : Z) (body : option json) | Broken.
(** What a handler makes of a request: it is refused, or something is done, or a nil pointer is dereferenced *)
Inductive handled T := Refused (status : Z) | Run (t : T) | Panics.
Arguments Refused {T}. Arguments Run {T}. Arguments Panics {T}.
(** The body of an error (common/errors/server_error.go); all messages are alike here, none is empty *)
Definition message : string := "message".
Definition refuse (status : Z) : response := Answer status (Some (on_wire (enc_error message))).
(** pkg/models/api/server.go:88-121 ModelEncodeResponse with a model, and without *)
Definition reply {A} (valid : A -> bool) (enc : A -> json) (status : Z) (a : A) : response :=
  match send valid enc a with Some b => Answer status (Some b) | None => refuse 500 end.
Definition empty_reply (status : Z) : response := Answer status None.

(** What a call of a client returns: no error, the message of the service as the error, another error *)
Inductive result A := Returned (a : A) | ServiceError (msg : string) | OtherError.
Arguments Returned {A}. Arguments ServiceError {A}. Arguments OtherError {A}.
(** The clients' treatment of an answer, e.g. pkg/clients/limiter_client/rule.go:45-62: [good] is the status of success,
    [known] are those for which an error is read from the body *)
Definition hear {A} (good : Z) (known : list Z) (read : option json -> option A) (r : response) : result A :=
  match r with
  | Answer st b =>
      if st =? good then match read b with Some a => Returned a | None => OtherError end
      else if existsb (Z.eqb st) known then match receive error_ok dec_error b with Some m => ServiceError m | None => OtherError end
      else OtherError
  | Broken => OtherError
  end.
(** The network: the exchange works; the request does not arrive; the answer does not arrive *)
Inductive network := Works | RequestLost | AnswerLost.
