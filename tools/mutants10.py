# edits of the memory model of the string routines (M_Text)
MUTANTS = [
 ('M_Text.v','array','(s ++ [NUL])','s','the terminator is not readable'),
 ('M_Text.v','ctype','(code c <? 255)','(code c <? 300)','EOF refused'),
 ('M_Text.v','ctype','(128 <=? code c)','(129 <=? code c)','character -128 accepted by isdigit'),
 ('M_Text.v','ctype','char_signed pf && ','negb (char_signed pf) && ','signedness of char'),
 ('M_Text.v','scan_m','(Ascii.eqb c "-")','(hasminus || Ascii.eqb c "-")','palIntin: "- 5" becomes negative'),
 ('M_Text.v','scan_m','if Ascii.eqb c NUL then Some hasminus','if false then Some hasminus','palIntin: the scan runs beyond the terminator'),
 ('M_Text.v','skip_m','(p + 1)','(p + 2)','skips every second character'),
 ('M_Text.v','blanks_m','ck 32 (nstrt + 1)','ck 16 (nstrt + 1)','position in a short'),
 ('M_Text.v','blanks_m','blanks_m n k m (ctemp + 1)','blanks_m n nstrt m (ctemp + 1)','blanks not counted'),
 ('M_Text.v','sep_m','ck 32 (nstrt + 1)','Some nstrt','comma not skipped'),
 ('M_Text.v','palIntin_m','ck 32 (nstrt - 1)','ck 32 nstrt','position taken as zero-based'),
 ('M_Text.v','palIntin_m','ck 32 (endptr + 1)','ck 32 endptr','position returned zero-based'),
 ('M_Text.v','palIntin_m','(Some (Ascii.eqb c "+"))','(Some false)','palIntin: plus sign not skipped'),
 ('M_Text.v','palIntin_m','if (retval <? 0) || hasminus','if (retval <? 0)','palIntin: minus zero'),
 ('M_Text.v','palIntin_m','if jflag =? 1 then ireslt else retval','retval','palIntin: result changed when null'),
 ('M_Text.v','put','(i <? size)','(i <=? size)','write one beyond the buffer accepted'),
 ('M_Text.v','copy_m','copy_m size n m (p + 1) (i + 1) b','copy_m size n m (p + 1) i b','copy keeps writing the first byte'),
 ('M_Text.v','copy_m','(if bsd_copy pf then Some b else pad_m size n (i + 1) b)','(pad_m size (S n) (i + 1) b)','strncpy pads one byte too many'),
 ('M_Text.v','bcopy_m','put size (size - 1) NUL b','put size size NUL b','terminator written beyond the buffer'),
 ('M_Text.v','bcopy_m','put size (size - 1) NUL b','Some b','long strings left unterminated'),
 ('M_Text.v','bcopy_m','copy_m size (Z.to_nat size) m','copy_m size (Z.to_nat size + 1) m','copy one byte too many'),
 ('M_Text.v','d2e_m','Ascii.eqb c "d" || Ascii.eqb c "D"','Ascii.eqb c "D"','lower-case d exponents'),
 ('M_Text.v','palDfltin_m','ck 32 (nstrt + endptr)','ck 32 endptr','position relative to the buffer'),
 ('M_Text.v','palDfltin_m','(retval ==? #0)%num && (endptr =? 0)','(retval ==? #0)%num','zero taken for no number'),
 ('M_Text.v','palDfltin_m','bcopy_m 256 m start uninit','bcopy_m 257 m start uninit','copy larger than the buffer'),
 ('M_Text.v','palDafin_m','fin ipos deg jd arcmin arcsec jf)','fin ipos deg jd arcsec arcmin jf)','fields exchanged'),
 ('M_Text.v','palDafin_m','(1 <? jm)','(2 <? jm)','arcmin out of range accepted'),
 ('M_Text.v','palObs_m','bcopy_m namelen (array (list_ascii_of_string (t_long t)))','bcopy_m identlen (array (list_ascii_of_string (t_long t)))','name copied with the size of ident'),
 ('M_Text.v','palObs_m','(t_short t))) 0 ident','(t_long t))) 0 ident','ident gets the long name'),
 ('M_Text.v','palObs_m','nth_error telData k','nth_error telData n','telescope number off by one'),
 ('M_Text.v','scan_for_minus','|| Ascii.eqb c ","','','SCAN_FOR_MINUS runs over commas'),
 ('M_Text.v','scan_for_minus','Some (S k)','Some k','SCAN_FOR_MINUS offset'),
 ('M_Text.v','palDfltin_scan','Some _ => -1 | None => 0','Some _ => 0 | None => -1','SCAN_FOR_MINUS status'),
]
