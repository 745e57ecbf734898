(** * SpecColor: the colours of CSS, and the names of the dvips colours. *)

From Coq Require Import String List NArith Bool.
From Verif Require Import Base Event.
Import ListNotations.
Open Scope N_scope.

(** CSS Color Module Level 4, section 6.1, as [0xRRGGBB]. *)
Definition css_colors : list (str * N) := [
  (lit "aliceblue", 0xF0F8FF); (lit "antiquewhite", 0xFAEBD7); (lit "aqua", 0x00FFFF); (lit "aquamarine", 0x7FFFD4);
  (lit "azure", 0xF0FFFF); (lit "beige", 0xF5F5DC); (lit "bisque", 0xFFE4C4); (lit "black", 0x000000);
  (lit "blanchedalmond", 0xFFEBCD); (lit "blue", 0x0000FF); (lit "blueviolet", 0x8A2BE2); (lit "brown", 0xA52A2A);
  (lit "burlywood", 0xDEB887); (lit "cadetblue", 0x5F9EA0); (lit "chartreuse", 0x7FFF00); (lit "chocolate", 0xD2691E);
  (lit "coral", 0xFF7F50); (lit "cornflowerblue", 0x6495ED); (lit "cornsilk", 0xFFF8DC); (lit "crimson", 0xDC143C);
  (lit "cyan", 0x00FFFF); (lit "darkblue", 0x00008B); (lit "darkcyan", 0x008B8B); (lit "darkgoldenrod", 0xB8860B);
  (lit "darkgray", 0xA9A9A9); (lit "darkgreen", 0x006400); (lit "darkgrey", 0xA9A9A9); (lit "darkkhaki", 0xBDB76B);
  (lit "darkmagenta", 0x8B008B); (lit "darkolivegreen", 0x556B2F); (lit "darkorange", 0xFF8C00); (lit "darkorchid", 0x9932CC);
  (lit "darkred", 0x8B0000); (lit "darksalmon", 0xE9967A); (lit "darkseagreen", 0x8FBC8F); (lit "darkslateblue", 0x483D8B);
  (lit "darkslategray", 0x2F4F4F); (lit "darkslategrey", 0x2F4F4F); (lit "darkturquoise", 0x00CED1); (lit "darkviolet", 0x9400D3);
  (lit "deeppink", 0xFF1493); (lit "deepskyblue", 0x00BFFF); (lit "dimgray", 0x696969); (lit "dimgrey", 0x696969);
  (lit "dodgerblue", 0x1E90FF); (lit "firebrick", 0xB22222); (lit "floralwhite", 0xFFFAF0); (lit "forestgreen", 0x228B22);
  (lit "fuchsia", 0xFF00FF); (lit "gainsboro", 0xDCDCDC); (lit "ghostwhite", 0xF8F8FF); (lit "gold", 0xFFD700);
  (lit "goldenrod", 0xDAA520); (lit "gray", 0x808080); (lit "green", 0x008000); (lit "greenyellow", 0xADFF2F);
  (lit "grey", 0x808080); (lit "honeydew", 0xF0FFF0); (lit "hotpink", 0xFF69B4); (lit "indianred", 0xCD5C5C);
  (lit "indigo", 0x4B0082); (lit "ivory", 0xFFFFF0); (lit "khaki", 0xF0E68C); (lit "lavender", 0xE6E6FA);
  (lit "lavenderblush", 0xFFF0F5); (lit "lawngreen", 0x7CFC00); (lit "lemonchiffon", 0xFFFACD); (lit "lightblue", 0xADD8E6);
  (lit "lightcoral", 0xF08080); (lit "lightcyan", 0xE0FFFF); (lit "lightgoldenrodyellow", 0xFAFAD2); (lit "lightgray", 0xD3D3D3);
  (lit "lightgreen", 0x90EE90); (lit "lightgrey", 0xD3D3D3); (lit "lightpink", 0xFFB6C1); (lit "lightsalmon", 0xFFA07A);
  (lit "lightseagreen", 0x20B2AA); (lit "lightskyblue", 0x87CEFA); (lit "lightslategray", 0x778899); (lit "lightslategrey", 0x778899);
  (lit "lightsteelblue", 0xB0C4DE); (lit "lightyellow", 0xFFFFE0); (lit "lime", 0x00FF00); (lit "limegreen", 0x32CD32);
  (lit "linen", 0xFAF0E6); (lit "magenta", 0xFF00FF); (lit "maroon", 0x800000); (lit "mediumaquamarine", 0x66CDAA);
  (lit "mediumblue", 0x0000CD); (lit "mediumorchid", 0xBA55D3); (lit "mediumpurple", 0x9370DB); (lit "mediumseagreen", 0x3CB371);
  (lit "mediumslateblue", 0x7B68EE); (lit "mediumspringgreen", 0x00FA9A); (lit "mediumturquoise", 0x48D1CC); (lit "mediumvioletred", 0xC71585);
  (lit "midnightblue", 0x191970); (lit "mintcream", 0xF5FFFA); (lit "mistyrose", 0xFFE4E1); (lit "moccasin", 0xFFE4B5);
  (lit "navajowhite", 0xFFDEAD); (lit "navy", 0x000080); (lit "oldlace", 0xFDF5E6); (lit "olive", 0x808000);
  (lit "olivedrab", 0x6B8E23); (lit "orange", 0xFFA500); (lit "orangered", 0xFF4500); (lit "orchid", 0xDA70D6);
  (lit "palegoldenrod", 0xEEE8AA); (lit "palegreen", 0x98FB98); (lit "paleturquoise", 0xAFEEEE); (lit "palevioletred", 0xDB7093);
  (lit "papayawhip", 0xFFEFD5); (lit "peachpuff", 0xFFDAB9); (lit "peru", 0xCD853F); (lit "pink", 0xFFC0CB);
  (lit "plum", 0xDDA0DD); (lit "powderblue", 0xB0E0E6); (lit "purple", 0x800080); (lit "rebeccapurple", 0x663399);
  (lit "red", 0xFF0000); (lit "rosybrown", 0xBC8F8F); (lit "royalblue", 0x4169E1); (lit "saddlebrown", 0x8B4513);
  (lit "salmon", 0xFA8072); (lit "sandybrown", 0xF4A460); (lit "seagreen", 0x2E8B57); (lit "seashell", 0xFFF5EE);
  (lit "sienna", 0xA0522D); (lit "silver", 0xC0C0C0); (lit "skyblue", 0x87CEEB); (lit "slateblue", 0x6A5ACD);
  (lit "slategray", 0x708090); (lit "slategrey", 0x708090); (lit "snow", 0xFFFAFA); (lit "springgreen", 0x00FF7F);
  (lit "steelblue", 0x4682B4); (lit "tan", 0xD2B48C); (lit "teal", 0x008080); (lit "thistle", 0xD8BFD8);
  (lit "tomato", 0xFF6347); (lit "turquoise", 0x40E0D0); (lit "violet", 0xEE82EE); (lit "wheat", 0xF5DEB3);
  (lit "white", 0xFFFFFF); (lit "whitesmoke", 0xF5F5F5); (lit "yellow", 0xFFFF00); (lit "yellowgreen", 0x9ACD32)].

Definition bytes_of (n : N) : rgb := (n / 65536, n / 256 mod 256, n mod 256).

(** The names dvips predefines, with the colours they have on a screen, as
    [0xRRGGBB]. *)
Definition dvips_colors : list (str * N) := [
  (lit "Apricot", 0xFBB982); (lit "Aquamarine", 0x00B5BE); (lit "Bittersweet", 0xC04F17); (lit "Black", 0x221E1F);
  (lit "Blue", 0x2D2F92); (lit "BlueGreen", 0x00B3B8); (lit "BlueViolet", 0x473992); (lit "BrickRed", 0xB6321C);
  (lit "Brown", 0x792500); (lit "BurntOrange", 0xF7921D); (lit "CadetBlue", 0x74729A); (lit "CarnationPink", 0xF282B4);
  (lit "Cerulean", 0x00A2E3); (lit "CornflowerBlue", 0x41B0E4); (lit "Cyan", 0x00AEEF); (lit "Dandelion", 0xFDBC42);
  (lit "DarkOrchid", 0xA4538A); (lit "Emerald", 0x00A99D); (lit "ForestGreen", 0x009B55); (lit "Fuchsia", 0x8C368C);
  (lit "Goldenrod", 0xFFDF42); (lit "Gray", 0x949698); (lit "Green", 0x00A64F); (lit "GreenYellow", 0xDFE674);
  (lit "JungleGreen", 0x00A99A); (lit "Lavender", 0xF49EC4); (lit "LimeGreen", 0x8DC73E); (lit "Magenta", 0xEC008C);
  (lit "Mahogany", 0xA9341F); (lit "Maroon", 0xAF3235); (lit "Melon", 0xF89E7B); (lit "MidnightBlue", 0x006795);
  (lit "Mulberry", 0xA93C93); (lit "NavyBlue", 0x006EB8); (lit "OliveGreen", 0x3C8031); (lit "Orange", 0xF58137);
  (lit "OrangeRed", 0xED135A); (lit "Orchid", 0xAF72B0); (lit "Peach", 0xF7965A); (lit "Periwinkle", 0x7977B8);
  (lit "PineGreen", 0x008B72); (lit "Plum", 0x92268F); (lit "ProcessBlue", 0x00B0F0); (lit "Purple", 0x99479B);
  (lit "RawSienna", 0x974006); (lit "Red", 0xED1B23); (lit "RedOrange", 0xF26035); (lit "RedViolet", 0xA1246B);
  (lit "Rhodamine", 0xEF559F); (lit "RoyalBlue", 0x0071BC); (lit "RoyalPurple", 0x613F99); (lit "RubineRed", 0xED017D);
  (lit "Salmon", 0xF69289); (lit "SeaGreen", 0x3FBC9D); (lit "Sepia", 0x671800); (lit "SkyBlue", 0x46C5DD);
  (lit "SpringGreen", 0xC6DC67); (lit "Tan", 0xDA9D76); (lit "TealBlue", 0x00AEB3); (lit "Thistle", 0xD883B7);
  (lit "Turquoise", 0x00B4CE); (lit "Violet", 0x58429B); (lit "VioletRed", 0xEF58A0); (lit "White", 0xFFFFFF);
  (lit "WildStrawberry", 0xEE2967); (lit "Yellow", 0xFFF200); (lit "YellowGreen", 0x98CC70); (lit "YellowOrange", 0xFAA21A)].

Definition dvips_names : list str := map fst dvips_colors.

(** [d] is [c] in lower case. A capital letter, and in Unicode also the Kelvin
    sign U+212A, has a lower-case letter; everything else stands for itself. *)
Definition lower (c d : char) : Prop :=
  (65 <= c <= 90 /\ d = c + 32) \/ (c = 8490 /\ d = 107) \/ (~ (65 <= c <= 90) /\ c <> 8490 /\ d = c).

(** The hexadecimal digits, in either case. *)
Definition hex_value (c : char) (v : N) : Prop :=
  (48 <= c <= 57 /\ v = c - 48) \/ (97 <= c <= 102 /\ v = c - 97 + 10) \/ (65 <= c <= 70 /\ v = c - 65 + 10).
