(** C68: fields written in place of a flattened struct. *)
From Coq Require Import Permutation.
From Verif Require Import Bytes Utf8 Error Values Places Heck Decl Spec Derive Generated Observe Order Spread Kit Samples.
From Verif Require Import SpreadFacts.
Local Open Scope string_scope.
Local Open Scope list_scope.

(** C68: flattening a struct is like writing its fields in its place, at any
    depth and in any subcommand: the same command lines are accepted, with the
    same values. *)
Theorem C68_flatten {V : Type} (d : args_decl V) (argv : list bytes) :
  valid d -> valid (spread d) -> flat_unexclusive d = true -> defaults_readable d = true ->
  same_but_groups (try_parse_from d argv) (try_parse_from (spread d) argv).
Proof. exact (spread_result d argv). Qed.
Print Assumptions C68_flatten.

Example C68_example :
  valid fetch /\ valid (spread fetch) /\ flat_unexclusive fetch = true /\ defaults_readable fetch = true /\
  map fst (fields_of (spread fetch)) = map bs ["proxy"; "cert"; "key"; "port"; "user"; "url"; "cmd"] /\
  match try_parse_from fetch (argv ["fetch"; "--key=k"; "--user"; "u"; "x"; "put"; "-q"; "--proxy=p"; "y"]),
        try_parse_from (spread fetch) (argv ["fetch"; "--key=k"; "--user"; "u"; "x"; "put"; "-q"; "--proxy=p"; "y"]) with
  | Ok (Out l [(net, Out m _ _)] (Some (_, Some (SubV put (Some (Out r [(log, _)] _)))))), Ok (Out l' [] (Some (_, Some (SubV _ (Some (Out r' [] _)))))) =>
      net = bs "net" /\ put = bs "Put" /\ log = bs "log" /\
      ~ In (fO "proxy" (Some "p")) l /\ In (fO "proxy" (Some "p")) m /\ In (fO "proxy" (Some "p")) l' /\ In (fO "key" (Some "k")) l' /\
      r = [fS "file" "y"] /\ r' = [fB "quiet" true; fS "file" "y"]
  | _, _ => False
  end.
Proof.
  split; [split; vm_compute; reflexivity|]. split; [split; vm_compute; reflexivity|]. split; [vm_compute; reflexivity|]. split; [vm_compute; reflexivity|].
  split; [vm_compute; reflexivity|]. vm_compute. repeat split; try tauto.
  intros H. repeat (destruct H as [H|H]; [discriminate H|]). exact H.
Qed.
(** What is missing can be reported in another order. *)
Example C68_missing :
  match try_parse_from fetch (argv ["fetch"; "--cert=c"]), try_parse_from (spread fetch) (argv ["fetch"; "--cert=c"]) with
  | Err e, Err e' => e_kind e = ConstraintRequired /\ e_kind e' = ConstraintRequired
  | _, _ => False
  end /\
  match try_parse_from fetch (argv ["fetch"]), try_parse_from (spread fetch) (argv ["fetch"]) with
  | Err e, Err e' => e = e' /\ e_kind e = MissingRequiredArgument
  | _, _ => False
  end.
Proof. vm_compute. repeat split. Qed.
(** An exclusive option excludes the arguments of its own struct only. *)
Example C68_exclusive :
  valid grouped_exclusive /\ valid (spread grouped_exclusive) /\ flat_unexclusive grouped_exclusive = false /\
  match try_parse_from grouped_exclusive (argv ["x"; "--loud"; "--list"]), try_parse_from (spread grouped_exclusive) (argv ["x"; "--loud"; "--list"]) with
  | Ok _, Err e' => e_kind e' = ConstraintExclusive
  | _, _ => False
  end.
Proof. split; [split; vm_compute; reflexivity|]. split; [split; vm_compute; reflexivity|]. split; vm_compute; reflexivity. Qed.
(** A name that is declared twice is no error across flattened structs. *)
Example C68_twice : valid (both false) /\ ~ valid (spread (both false)).
Proof. split; [split; vm_compute; reflexivity|]. intros [H _]. vm_compute in H. discriminate H. Qed.
