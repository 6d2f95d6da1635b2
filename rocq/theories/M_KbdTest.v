(** Model of the script that tests a keyboard (/repo/scripts/kbdtest). The keyboard is that of
    M_Keyboard; the test file is given as the list of its events. *)
From Coq Require Import String.
From Verif Require Import Py M_Keyboard.
Local Open Scope list_scope.
Local Open Scope nat_scope.

(** lines 7-14 *)
Definition modifiermap : list (pystr * pystr) :=
  [(lit "shift", lit "shift"); (lit "ctrl", lit "ctrl"); (lit "rctrl", lit "ctrlR"); (lit "alt", lit "alt");
   (lit "altgr", lit "altR"); (lit "caps", lit "caps")].
(** lines 16-65 *)
Definition keymap : list (pystr * pystr) :=
  [(lit "K_K", lit "C08"); (lit "K_X", lit "B02"); (lit "K_G", lit "C05"); (lit "K_C", lit "B03"); (lit "K_Q", lit "D01");
   (lit "K_D", lit "C03"); (lit "K_Z", lit "B01"); (lit "K_T", lit "D05"); (lit "K_F", lit "C04"); (lit "K_N", lit "B06");
   (lit "K_B", lit "B05"); (lit "K_P", lit "D10"); (lit "K_M", lit "B07"); (lit "K_Y", lit "D06"); (lit "K_R", lit "D04");
   (lit "K_L", lit "C09"); (lit "K_V", lit "B04"); (lit "K_S", lit "C02"); (lit "K_H", lit "C06"); (lit "K_A", lit "C01");
   (lit "K_I", lit "D08"); (lit "K_W", lit "D02"); (lit "K_U", lit "D07"); (lit "K_E", lit "D03"); (lit "K_O", lit "D09");
   (lit "K_J", lit "C07"); (lit "K_SLASH", lit "B10"); (lit "K_PERIOD", lit "B09"); (lit "K_BKQUOTE", lit "E00");
   (lit "K_0", lit "E10"); (lit "K_1", lit "E01"); (lit "K_2", lit "E02"); (lit "K_3", lit "E03"); (lit "K_4", lit "E04");
   (lit "K_5", lit "E05"); (lit "K_6", lit "E06"); (lit "K_7", lit "E07"); (lit "K_8", lit "E08"); (lit "K_9", lit "E09");
   (lit "K_SPACE", lit "A03"); (lit "K_COMMA", lit "B08"); (lit "K_QUOTE", lit "C11"); (lit "K_COLON", lit "C10");
   (lit "K_LBRKT", lit "D11"); (lit "K_HYPHEN", lit "E11"); (lit "K_RBRKT", lit "D12"); (lit "K_BKSLASH", lit "B00");
   (lit "K_EQUAL", lit "E12")].

(** An event: None for an element that is not there. [ev_shift] has the tags of the children of
    shiftstate, [ev_vkey] and [ev_text] the text of vkey and of postcontext/text. *)
Record event := Event {
  ev_key : bool;
  ev_shift : option (list pystr);
  ev_vkey : option (option pystr);
  ev_text : option (option pystr) }.
(** what is printed: the number of the event, what is seen and what should be *)
Definition failure : Type := nat * pystr * option pystr.
Inductive outcome := Exit (status : nat) | Error (e : exn).

Section Test.
  Variable ws : N -> bool.
  Variable lower : pystr -> pystr.
  Variable pyint : pystr -> option Z.
  Variable kb : keyboard.
  Variable usvs : bool.

  (** lines 79-83 *)
  Fixpoint modifiers (tags : list pystr) : res (list pystr) :=
    match tags with
    | [] => Ok []
    | t :: tags' =>
        match dget streq modifiermap t with
        | None => Raise KeyError
        | Some m => do ms <- modifiers tags'; Ok (m :: ms)
        end
    end.
  (** lines 77-89: the keystroke and what should be seen; None: continue *)
  Definition read_event (e : event) : res (option (pystr * list pystr * option pystr)) :=
    if negb (ev_key e) then Ok None
    else
      do ms <- match ev_shift e with Some tags => modifiers tags | None => Ok [] end;
      match ev_vkey e with
      | None => Ok None
      | Some None => Raise AttributeError
      | Some (Some v) =>
          match dget streq keymap (strip ws v) with
          | None => Raise KeyError
          | Some key => match ev_text e with
                        | None => Ok None
                        | Some test => Ok (Some (key, ms, test))
                        end
          end
      end.
  Definition optq (a : pystr) (b : option pystr) : bool := match b with Some b => streq a b | None => false end.
  (** lines 76-97. sys.exit gives the status modulo 256. *)
  Fixpoint kbdtest (i errors : nat) (hist : list context) (evs : list event) : list failure * outcome :=
    match evs with
    | [] => ([], Exit (errors mod 256))
    | e :: evs' =>
        match read_event e with
        | Raise x => ([], Error x)
        | Ok None => kbdtest (S i) errors hist evs'
        | Ok (Some (key, ms, test)) =>
            match process ws lower pyint kb hist key ms with
            | Raise x => ([], Error x)
            | Ok (c, hist') =>
                if optq (shown c) test then kbdtest (S i) errors hist' evs'
                else match usvs, test with
                     | true, None => ([(i + 1, shown c, test)], Error TypeError)   (* for x in None *)
                     | _, _ => let r := kbdtest (S i) (S errors) hist' evs' in
                               ((i + 1, shown c, test) :: fst r, snd r)
                     end
            end
        end
    end.
End Test.
