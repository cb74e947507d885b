(** Chatbots: dialogs, their encoding, and the chat program.

    Models
    - recipes/chatbot/chatbot.py 22-101 (Message, StandardChatbot),
    - recipes/chatbot/llama.py 22-165 (LLaMADialogEncoder, LLaMA3DialogEncoder,
      create_llama_dialog_encoder),
    - recipes/chatbot/mistral.py 22-69 (MistralDialogEncoder),
    - recipes/chatbot/program.py 22-190 (Program, MessagePrintHook).

    Simplifications.  Token sequences are lists of indices.  The raw encoder of
    the tokenizer, [str.strip], the decoder and the model's reply to a dialog
    are parameters; the latter is the same function on all ranks.  In the chat
    program what the ranks do together is the list of messages that are
    broadcast and the list of dialogs that are given to the model. *)

Require Import String List Arith ZArith Bool.
Import ListNotations.

Definition newline : string := String (Ascii.ascii_of_nat 10) EmptyString.

Inductive role := System | User | Bot.
Record message := Msg { role_of : role; content : string }.
Notation dialog := (list message) (only parsing).

Definition role_eqb (a b : role) : bool :=
  match a, b with System, System | User, User | Bot, Bot => true | _, _ => false end.

Inductive error := Empty_dialog | Last_not_user | Not_alternating | Index_error.
Inductive res (A : Type) := Ok (a : A) | Err (e : error).
Arguments Ok {A}. Arguments Err {A}.

(** zip(dialog[::2], dialog[1::2]) *)
Fixpoint pairs (d : dialog) : list (message * message) :=
  match d with
  | a :: r => match r with b :: r' => (a, b) :: pairs r' | [] => [] end
  | [] => []
  end.

(** The two checks at the begin of every encoder (llama.py 38-44, 104-110;
    mistral.py 38-44): the last message. *)
Definition last_message (d : dialog) : res message :=
  match d with
  | [] => Err Empty_dialog
  | m :: _ => let l := last d m in
              if negb (role_eqb (role_of l) User) then Err Last_not_user else Ok l
  end.

Section Encoders.
  (** [self._text_encoder] and [str.strip]. *)
  Variable encode_text : string -> list nat.
  Variable strip : string -> string.
  Variables bos eos boh eoh : nat.

  (** f"[INST] {user.content.strip()} [/INST] {bot.content.strip()}" *)
  Definition inst_pair (user bot : string) : string :=
    ("[INST] " ++ strip user ++ " [/INST] " ++ strip bot)%string.
  Definition inst_last (user : string) : string :=
    ("[INST] " ++ strip user ++ " [/INST]")%string.

  (** The loop over the pairs; [f] is what a pair adds to the sequence. *)
  Fixpoint encode_pairs (f : message -> message -> list nat) (ps : list (message * message)) : res (list nat) :=
    match ps with
    | [] => Ok []
    | (user, bot) :: ps' =>
        if negb (role_eqb (role_of user) User) || negb (role_eqb (role_of bot) Bot)
        then Err Not_alternating
        else match encode_pairs f ps' with
             | Err e => Err e
             | Ok r => Ok (f user bot ++ r)
             end
    end.

  (** mistral.py 36-64: [encode]. *)
  Definition mistral_encode (d : dialog) : res (list nat) :=
    match last_message d with
    | Err e => Err e
    | Ok l =>
        match encode_pairs (fun u b => encode_text (inst_pair (content u) (content b)) ++ [eos]) (pairs d) with
        | Err e => Err e
        | Ok r => Ok ([bos] ++ r ++ encode_text (inst_last (content l)))
        end
    end.

  (** llama.py 46-52: the system message becomes part of the first user message. *)
  Definition merge_system (d : dialog) : res (list message) :=
    match d with
    | s :: r =>
        if role_eqb (role_of s) System then
          match r with
          | m :: r' =>
              Ok (Msg (role_of m)
                    ("<<SYS>>" ++ newline ++ content s ++ newline ++ "<</SYS>>" ++ newline ++ newline ++ content m)%string
                  :: r')
          | [] => Err Index_error
          end
        else Ok d
    | [] => Ok d
    end.

  (** llama.py 36-72: [LLaMADialogEncoder.encode]. *)
  Definition llama_encode (d : dialog) : res (list nat) :=
    match last_message d with
    | Err e => Err e
    | Ok _ =>
        match merge_system d with
        | Err e => Err e
        | Ok d' =>
            match encode_pairs (fun u b => [bos] ++ encode_text (inst_pair (content u) (content b)) ++ [eos]) (pairs d') with
            | Err e => Err e
            | Ok r => Ok (r ++ [bos] ++ encode_text (inst_last (content (last d' (Msg User "")))))
            end
        end
    end.

  (** llama.py 100, 114-122: [encode_role] and [encode_content]. *)
  Definition break : list nat := encode_text (newline ++ newline)%string.
  Definition encode_role (r : string) : list nat := [boh] ++ encode_text r ++ [eoh] ++ break.
  Definition encode_content (c : string) : list nat := encode_text (strip c) ++ [eos].

  (** llama.py 102-151: [LLaMA3DialogEncoder.encode]. *)
  Definition llama3_encode (d : dialog) : res (list nat) :=
    match last_message d with
    | Err e => Err e
    | Ok l =>
        let '(sys, d') :=
          match d with
          | s :: r => if role_eqb (role_of s) System then (encode_role "system" ++ encode_content (content s), r) else ([], d)
          | [] => ([], d)
          end in
        match encode_pairs
                (fun u b => encode_role "user" ++ encode_content (content u) ++ encode_role "assistant" ++ encode_content (content b))
                (pairs d') with
        | Err e => Err e
        | Ok r => Ok ([bos] ++ sys ++ r ++ encode_role "user" ++ encode_content (content (last d' (Msg User ""))) ++ encode_role "assistant")
        end
    end.
End Encoders.

(** llama.py 159-165: [create_llama_dialog_encoder] with the constructors
    (llama.py 24-34, 82-98): which encoder is created, if any. *)
Inductive encoder_kind := LLaMA2_encoder | LLaMA3_encoder | Creation_fails.
Definition create_llama_dialog_encoder (bos eos boh eoh : option nat) : encoder_kind :=
  match boh, eoh with
  | None, None => match bos, eos with Some _, Some _ => LLaMA2_encoder | _, _ => Creation_fails end
  | Some _, Some _ => match bos, eos with Some _, Some _ => LLaMA3_encoder | _, _ => Creation_fails end
  | _, _ => Creation_fails
  end.

(** ** The chat program *)

Record doings := {
  broadcasts : list message; (* sent or received *)
  given : list (list message); (* the dialogs given to the model *)
  ended : bool
}.

Section Chat.
  (** The text of the model's response to a dialog. *)
  Variable reply : list message -> string.

  Definition bye : string := "bye".

  (** program.py 53-62, 71-97: the loop of the first rank; without further
      input it waits. *)
  Fixpoint chat (d : dialog) (inputs : list string) : doings :=
    match inputs with
    | [] => {| broadcasts := []; given := []; ended := false |}
    | m :: inputs' =>
        if String.eqb m bye then {| broadcasts := [Msg User bye]; given := []; ended := true |}
        else
          let d1 := d ++ [Msg User m] in
          let rest := chat (d1 ++ [Msg Bot (reply d1)]) inputs' in
          {| broadcasts := Msg User m :: broadcasts rest; given := d1 :: given rest; ended := ended rest |}
    end.

  (** program.py 47-70: [_run_interactive]; an empty prompt is no prompt. *)
  Definition run_interactive (supports_system_prompt : bool) (prompt : string) (inputs : list string) : doings :=
    if supports_system_prompt && negb (String.eqb prompt "") then
      let rest := chat [Msg System prompt] inputs in
      {| broadcasts := Msg System prompt :: broadcasts rest; given := given rest; ended := ended rest |}
    else chat [] inputs.

  (** program.py 99-120: [_run_non_interactive], on the messages that are
      broadcast; [broadcasts] are those that it receives. *)
  Fixpoint run_non_interactive (d : dialog) (sent : list message) : doings :=
    match sent with
    | [] => {| broadcasts := []; given := []; ended := false |}
    | m :: sent' =>
        if String.eqb (content m) bye then {| broadcasts := [m]; given := []; ended := true |}
        else
          let d1 := d ++ [m] in
          if role_eqb (role_of m) System then
            let rest := run_non_interactive d1 sent' in
            {| broadcasts := m :: broadcasts rest; given := given rest; ended := ended rest |}
          else
            let rest := run_non_interactive (d1 ++ [Msg Bot (reply d1)]) sent' in
            {| broadcasts := m :: broadcasts rest; given := d1 :: given rest; ended := ended rest |}
    end.
End Chat.

(** ** Printing a reply while it is generated *)
Section Print.
  Context {char : Type}.
  Variable decode : list nat -> list char.
  Variable is_space : char -> bool.

  (** [str.lstrip] *)
  Fixpoint lstrip (s : list char) : list char :=
    match s with c :: s' => if is_space c then lstrip s' else s | [] => [] end.

  (** [s[i:]] *)
  Definition slice_from (s : list char) (i : Z) : list char :=
    if (i <? 0)%Z then skipn (Z.to_nat (Z.of_nat (length s) + i)) s else skipn (Z.to_nat i) s.

  Record hook := { first_print : bool; prev_text_len : nat }.
  Definition new_hook := {| first_print := true; prev_text_len := 0 |}.

  (** program.py 144-190: [MessagePrintHook.__call__] after the prefill; the
      piece that is printed. *)
  Definition hook_call (h : hook) (seq : list nat) : hook * list char :=
    let text := decode seq in
    let text_len := length text in
    let prev := if prev_text_len h =? 0 then length (decode (removelast seq)) else prev_text_len h in
    let h' := {| first_print := first_print h; prev_text_len := text_len |} in
    if text_len =? prev then (h', [])
    else
      let piece := slice_from text (Z.of_nat prev - Z.of_nat text_len) in
      if first_print h then
        match lstrip piece with
        | [] => (h', [])
        | p => ({| first_print := false; prev_text_len := text_len |}, p)
        end
      else (h', piece).

  (** The calls during a generation: after every generated token. *)
  Fixpoint print_reply (h : hook) (seq generated : list nat) : list char :=
    match generated with
    | [] => []
    | t :: generated' =>
        let '(h', piece) := hook_call h (seq ++ [t]) in
        piece ++ print_reply h' (seq ++ [t]) generated'
    end.
End Print.
