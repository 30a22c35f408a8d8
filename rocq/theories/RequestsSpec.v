(** What a client may expect of the answers to its requests. A request is answered immediately, or it is
    worked on; what the work yields determines the answer, except that work interrupted by an edit is
    done again. Independent of how the server keeps track of requests. *)
From Coq Require Import List ZArith Bool String Lia Arith.
From Verif Require Import RequestsModel.
Import ListNotations.
Local Open Scope string_scope.

Section Spec.
Variable json : Type.
Variable parse_error : string -> json -> option string.
Variable null : json.
Notation request := (request json).
Notation body := (body json).
Notation outcome := (outcome json).
Notation event := (event json).

Definition known (m : string) : bool := existsb (String.eqb m) handled_methods.

(** The immediate answer, or None if the request is worked on. [down]: shutdown was requested before. *)
Definition immediate (down : bool) (q : request) : option body :=
  if String.eqb (rq_method _ q) "shutdown" then
    match parse_error "shutdown" (rq_params _ q) with
    | Some e => Some (Error _ (-32602)%Z e)
    | None => Some (Result _ null)
    end
  else if down then Some (Error _ (-32600)%Z "Shutdown already requested.")
  else if known (rq_method _ q) then
    match parse_error (rq_method _ q) (rq_params _ q) with
    | Some e => Some (Error _ (-32602)%Z e)
    | None => None
    end
  else Some (Error _ (-32601)%Z "unknown request").

(** Whether a request shuts the server down *)
Definition shuts_down (q : request) : bool :=
  String.eqb (rq_method _ q) "shutdown" && match parse_error "shutdown" (rq_params _ q) with None => true | Some _ => false end.

(** The answer that work gives, or None if it has to be done again *)
Definition answer_of (o : outcome) : option body :=
  match o with
  | Returned _ v => Some (Result _ v)
  | FailedLsp _ c m => Some (Error _ c m)
  | Failed _ m => Some (Error _ (-32603)%Z m)
  | Panicked _ None => Some (Error _ (-32603)%Z "request handler panicked")
  | Panicked _ (Some m) => Some (Error _ (-32603)%Z ("request handler panicked: " ++ m))
  | Cancelled _ => None
  end.

(** The requests being worked on, those whose work is done, and the answers so far *)
Record ledger := Ledger {
  lg_down : bool;
  lg_working : list request;
  lg_done : list (request * outcome);
  lg_answers : list (req_id * body) }.

Definition accept (l : ledger) (q : request) : ledger :=
  match immediate (lg_down l) q with
  | Some b => Ledger (lg_down l || shuts_down q) (lg_working l) (lg_done l) (lg_answers l ++ [(rq_id _ q, b)])
  | None => Ledger (lg_down l) (lg_working l ++ [q]) (lg_done l) (lg_answers l)
  end.

Definition entry (l : ledger) (e : event) : ledger :=
  match e with
  | Arrive _ q => accept l q
  | Cancel _ _ => l
  | Work _ n o =>
      match nth_error (lg_working l) n with
      | None => l
      | Some q => Ledger (lg_down l) (remove_nth n (lg_working l)) (lg_done l ++ [(q, o)]) (lg_answers l)
      end
  | Receive _ =>
      match lg_done l with
      | [] => l
      | (q, o) :: tl =>
          let l := Ledger (lg_down l) (lg_working l) tl (lg_answers l) in
          match answer_of o with
          | Some b => Ledger (lg_down l) (lg_working l) (lg_done l) (lg_answers l ++ [(rq_id _ q, b)])
          | None => accept l q
          end
      end
  end.
Definition ledger_of (h : list event) : ledger := fold_left entry h (Ledger false [] [] []).

(** How many requests with an id were sent to the server *)
Fixpoint asked (i : req_id) (h : list event) : nat :=
  match h with
  | [] => 0
  | Arrive _ q :: tl => (if id_dec (rq_id _ q) i then 1 else 0) + asked i tl
  | _ :: tl => asked i tl
  end.
(** How many responses with an id the server sent *)
Definition answered (i : req_id) (rs : list (response json)) : nat :=
  List.length (filter (fun r => if id_dec (rs_id _ r) i then true else false) rs).

(** How many requests with an id are being worked on, or done but not yet answered *)
Definition working (i : req_id) (l : ledger) : nat :=
  List.length (filter (fun q => if id_dec (rq_id _ q) i then true else false)
                 (lg_working l ++ map fst (lg_done l))%list).

(** The client does not use the id of a request that is still unanswered for another request *)
Definition polite (h : list event) : Prop :=
  forall h1 q h2, h = (h1 ++ Arrive _ q :: h2)%list ->
    asked (rq_id _ q) h1 = answered (rq_id _ q) (sent _ (run json parse_error null h1)).
End Spec.
