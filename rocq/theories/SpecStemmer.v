(** * The Snowball regions, said on the characters of a word. *)
From Verif Require Import Entities Utf8 SpecUtf8.
Open Scope N_scope.

(** Spanish vowels a e i o u á é í ó ú ü by code point. *)
Definition vowel (x : N * bytes) : Prop :=
  x.1 = 97 \/ x.1 = 101 \/ x.1 = 105 \/ x.1 = 111 \/ x.1 = 117 \/
  x.1 = 0xE1 \/ x.1 = 0xE9 \/ x.1 = 0xED \/ x.1 = 0xF3 \/ x.1 = 0xFA \/ x.1 = 0xFC.

(** [rest] is what follows the first character of [cs] satisfying [P]. *)
Definition after_next (P : N * bytes -> Prop) (cs rest : list (N * bytes)) : Prop :=
  exists a c, cs = a ++ c :: rest /\ Forall (fun x => ~ P x) a /\ P c.

(** The region after the first non-vowel following a vowel. *)
Definition is_r1 (cs rest : list (N * bytes)) : Prop :=
  exists cs', after_next vowel cs cs' /\ after_next (fun x => ~ vowel x) cs' rest.

(** RV as the comment in stemmer_spanish_snowball.go:72-74 (and the Snowball
    page) defines it. *)
Definition is_rv (cs rest : list (N * bytes)) : Prop :=
  exists x y cs', cs = x :: y :: cs' /\
    ((~ vowel y /\ after_next vowel cs' rest) \/
     (vowel x /\ vowel y /\ after_next (fun x => ~ vowel x) cs' rest) \/
     (~ vowel x /\ vowel y /\ exists z, cs' = z :: rest)).

(** A region as the code returns it: nil if there is none or it is empty. *)
Definition region (R : list (N * bytes) -> Prop) (o : option bytes) : Prop :=
  (exists rest, R rest /\ rest <> [] /\ o = Some (run_bytes rest)) \/
  ((forall rest, R rest -> rest = []) /\ o = None).
