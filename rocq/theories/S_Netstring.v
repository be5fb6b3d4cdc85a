(** Specification of netstrings: the length in decimal, a colon, the bytes, a comma. *)
From Verif Require Import Base S_Bigint.
Local Open Scope Z_scope.

Definition netstring (d s : list Z) : Prop := exists ds, decimal (zlen d) ds /\ s = ds ++ [58] ++ d ++ [44].

(** More than 999999999 bytes are not allowed in a netstring (comment at netstring.c:17). *)
Definition ns_limit : Z := 10 ^ 9.

(** The names of the requests a monitor understands. *)
Definition name_actors : list Z := [97; 99; 116; 111; 114; 115].
Definition name_wts : list Z := [87; 84; 83].
