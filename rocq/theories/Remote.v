(** Model of hadar/optimizer/remote/optimizer.py and of RemoteOptimizer.

    The server is any function of the requests received so far, the last one
    being the one it answers: it may keep a state, lie, or fail. The text of a
    URL is represented by its parts. Pauses and drawings on the terminal are not
    modelled, except for the exceptions that the progress bar may raise. *)
From Coq Require Import String List ZArith QArith Bool Arith.
From Verif Require Import Base Numeric Study Output Json.
Import ListNotations.
Open Scope nat_scope.
Open Scope string_scope.
Open Scope list_scope.

(** [requests.post(url="%s/api/v1/study" % url, json=body, params={"token": token})] and
    [requests.get(url="%s/api/v1/result/%s" % (url, id), params={"token": token})] *)
Inductive request :=
| Post (url token : string) (body : json)
| Get (url token : string) (id : json).

(** An answer: status code, and the JSON body ([None] when the body is not JSON,
    so that [resp.json()] raises a subclass of ValueError); or no answer at all
    ([requests] raises a subclass of IOError). *)
Inductive reply :=
| Reply (code : nat) (body : option json)
| NoReply.

Definition server := list request -> reply.

(** check_code: 26-32 *)
Definition check_code (code : nat) : res unit :=
  if Nat.eqb code 404 then Err ValueError
  else if Nat.eqb code 403 then Err ValueError
  else if Nat.eqb code 500 then Err IOError
  else Ok tt.

(** Send a request, check the code and read the body: 45-51 and 60-64. *)
Definition receive (srv : server) (tr : list request) : res json :=
  match srv tr with
  | NoReply => Err IOError
  | Reply code body =>
      let* _ := check_code code in
      match body with Some j => Ok j | None => Err ValueError end
  end.

(** [bar.goto(p)] (67) with [bar.max = m]: the library subtracts from [p] and
    divides by [m] if it is not null. Simplification: infinite numbers. *)
Definition is_num (j : json) : bool := match j with JNum _ | JBool _ => true | _ => false end.
Definition goto (m p : json) : res unit := if is_num m && is_num p then Ok tt else Err TypeError.

Definition is_str (s : string) (j : json) : bool :=
  match j with JStr s' => String.eqb s s' | _ => false end.

(** [resp["status"] in ["QUEUED", "COMPUTING"]] *)
Definition is_waiting (status : json) : bool := is_str "QUEUED" status || is_str "COMPUTING" status.

(** After the loop: 77-80. A message that is not text is not kept. *)
Definition finish (resp : json) : res result :=
  let* st := jfield "status" resp in
  if is_str "ERROR" st
  then let* m := jfield "message" resp in
       Err (ServerError (match m with JStr s => s | _ => "" end))
  else let* r := jfield "result" resp in snd (result_from_json r).

(** The loop 59-75, cut after [fuel] requests: requests sent so far and, unless it
    is still running, its outcome. *)
Fixpoint poll (fuel : nat) (srv : server) (url token : string) (id m : json) (tr : list request) (resp : json)
  : list request * option (res result) :=
  match jfield "status" resp with
  | Err e => (tr, Some (Err e))
  | Ok st =>
      if is_waiting st then
        match fuel with
        | O => (tr, None)
        | S f =>
            let tr' := tr ++ [Get url token id] in
            match receive srv tr' with
            | Err e => (tr', Some (Err e))
            | Ok resp' =>
                match (let* st' := jfield "status" resp' in
                       if is_str "QUEUED" st' then let* p := jfield "progress" resp' in goto m p else Ok tt) with
                | Err e => (tr', Some (Err e))
                | Ok _ => poll f srv url token id m tr' resp'
                end
            end
        end
      else (tr, Some (finish resp))
  end.

(** solve_remote: 35-80 *)
Definition solve_remote (fuel : nat) (srv : server) (s : study) (url token : string)
  : list request * option (res result) :=
  let tr := [Post url token (study_to_json s)] in
  match receive srv tr with
  | Err e => (tr, Some (Err e))
  | Ok resp =>
      match jfield "job" resp with
      | Err e => (tr, Some (Err e))
      | Ok id =>
          match jfield "progress" resp with
          | Err e => (tr, Some (Err e))
          | Ok m => poll fuel srv url token id m tr resp
          end
      end
  end.

(** RemoteOptimizer: optimizer.py:41-63 *)
Record remote_optimizer := RemoteOptimizer { ro_url : string; ro_token : string }.
Definition remote_solve (fuel : nat) (srv : server) (o : remote_optimizer) (s : study) :=
  solve_remote fuel srv s (ro_url o) (ro_token o).
