argentina 10
australia_Settlement 11
australia_ASX 11
austria_Settlement 9
austria_Exchange 10
botswana 10
brazil_Settlement 9
brazil_Exchange 10
canada_Settlement 10
canada_TSX 10
chile 10
china 14
czechrepublic 11
denmark 11
finland 10
france_Settlement 9
france_Exchange 10
germany_Settlement 10
germany_FrankfurtStockExchange 10
germany_Xetra 10
germany_Eurex 10
germany_Euwax 10
hongkong 11
hungary 10
iceland 11
india 10
indonesia 13
italy_Settlement 9
italy_Exchange 10
japan 12
mexico 11
newzealand_Wellington 10
newzealand_Auckland 10
norway 11
poland_Settlement 9
poland_WSE 9
romania 10
russia_Settlement 13
russia_Exchange 12
singapore 10
slovakia 11
southafrica 11
southkorea 12
sweden 10
switzerland 10
taiwan 17
target 10
thailand 10
turkey 13
ukraine 9
unitedkingdom_Settlement 10
unitedkingdom_Exchange 10
unitedkingdom_Metals 10
unitedstates_Settlement 9
unitedstates_Libor 9
unitedstates_NYSE 10
unitedstates_GovernmentBond 9
unitedstates_SOFR 9
unitedstates_NERC 9
unitedstates_FederalReserve 9
