(** What instruction tuning is expected to do. *)

From Coq Require Import ZArith QArith Qcanon List Bool Arith.
From Verif Require Import Xen_Model.
Import ListNotations.
Local Open Scope nat_scope.

Section Spec.
  Variable log_softmax : list Qc -> list Qc.
  Variable vocab : nat.
  (** What the language model predicts after some tokens. *)
  Variable lm : list Z -> list Qc.

  (** A decoder is causal: the logits of a token of a sequence are what the
      language model predicts after the tokens up to it; those of the padding
      may be anything. *)
  Definition causal (decoder : list (list Z) -> list nat -> list (list (list Qc))) : Prop :=
    forall (sequences paddings : list (list Z)), length paddings = length sequences ->
    exists whatever : list (list (list Qc)),
      Forall2 (fun p w => length w = length p) paddings whatever
      /\ (forall l, In l (concat whatever) -> length (log_softmax l) = vocab)
      /\ decoder (map (fun x => fst x ++ snd x) (combine sequences paddings)) (map (@length Z) sequences)
         = map (fun x => map (fun j => lm (firstn (S j) (fst x))) (seq 0 (length (fst x))) ++ snd x)
             (combine sequences whatever).

  (** The negative log likelihood of a token after a context. *)
  Definition nll (context : list Z) (token : Z) : Qc :=
    (- nth (Z.to_nat token) (log_softmax (lm context)) 0)%Qc.

  (** That of a response: every token, after the prompt and the tokens of the
      response before it. *)
  Definition response_nll (prompt response : list Z) : Qc :=
    qsum (map (fun k => nll (prompt ++ firstn k response) (nth k response 0%Z)) (seq 0 (length response))).
End Spec.
