(** Specification vocabulary for remote solving. *)
From Coq Require Import String List ZArith QArith.
From Verif Require Import Base Remote.
Import ListNotations.
Open Scope string_scope.
Open Scope list_scope.

(** The body of an answer is a dictionary holding [v] under [k]. *)
Definition says (r : reply) (k : string) (v : json) : Prop :=
  exists code d, r = Reply code (Some (JObj d)) /\ dget k d = Some v.
Definition has_code (r : reply) (c : nat) : Prop := exists b, r = Reply c b.
Definition waiting (r : reply) : Prop := says r "status" (JStr "QUEUED") \/ says r "status" (JStr "COMPUTING").
Definition refused_code (r : reply) : Prop := has_code r 403 \/ has_code r 404 \/ has_code r 500.
Definition number (j : json) : Prop := exists q, j = JNum q.

(** Answers following the protocol while the job is not done: progress is given as a
    number when the job is queued. *)
Definition keeps_waiting (r : reply) : Prop := ~ refused_code r /\
  ((says r "status" (JStr "QUEUED") /\ exists p, number p /\ says r "progress" p) \/ says r "status" (JStr "COMPUTING")).
