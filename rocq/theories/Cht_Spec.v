(** What a dialog is, and how the models were trained to read one. *)

Require Import String List Arith Bool.
From Verif Require Import Cht_Model.
Import ListNotations.

(** Possibly a system message, then turns of the user and of the bot, then what
    the user said last. *)
Definition dialog_of (system : option string) (turns : list (string * string)) (question : string) : list message :=
  (match system with Some s => [Msg System s] | None => [] end)
  ++ flat_map (fun t => [Msg User (fst t); Msg Bot (snd t)]) turns
  ++ [Msg User question].

Section Formats.
  Variable encode_text : string -> list nat.
  Variable strip : string -> string.
  Variables bos eos boh eoh : nat.

  (** The format of Mistral. *)
  Definition mistral_format (turns : list (string * string)) (question : string) : list nat :=
    bos :: flat_map (fun t => encode_text ("[INST] " ++ strip (fst t) ++ " [/INST] " ++ strip (snd t))%string ++ [eos]) turns
    ++ encode_text ("[INST] " ++ strip question ++ " [/INST]")%string.

  (** The format of LLaMA 2: every turn begins and ends for itself. *)
  Definition llama_format (turns : list (string * string)) (question : string) : list nat :=
    flat_map (fun t => bos :: encode_text ("[INST] " ++ strip (fst t) ++ " [/INST] " ++ strip (snd t))%string ++ [eos]) turns
    ++ bos :: encode_text ("[INST] " ++ strip question ++ " [/INST]")%string.

  (** With a system message, it is put in front of what the user says first. *)
  Definition with_system (system first : string) : string :=
    ("<<SYS>>" ++ newline ++ system ++ newline ++ "<</SYS>>" ++ newline ++ newline ++ first)%string.

  Definition llama_system_format (system : string) (turns : list (string * string)) (question : string) : list nat :=
    match turns with
    | [] => llama_format [] (with_system system question)
    | (u, b) :: turns' => llama_format ((with_system system u, b) :: turns') question
    end.

  (** The format of LLaMA 3: blocks with the name of a speaker and what they
      said, and the name of the assistant, who is next. *)
  Definition header (name : string) : list nat := boh :: encode_text name ++ eoh :: encode_text (newline ++ newline)%string.
  Definition block (name said : string) : list nat := header name ++ encode_text (strip said) ++ [eos].
  Definition llama3_format (system : option string) (turns : list (string * string)) (question : string) : list nat :=
    bos :: (match system with Some s => block "system" s | None => [] end)
    ++ flat_map (fun t => block "user" (fst t) ++ block "assistant" (snd t)) turns
    ++ block "user" question ++ header "assistant".
End Formats.

(** The answers in a dialog are what the model replied to what was said before. *)
Definition answered (reply : list message -> string) (system : option string) (turns : list (string * string)) : Prop :=
  forall i u b, nth_error turns i = Some (u, b) -> b = reply (dialog_of system (firstn i turns) u).
